From Verif Require Import Base BaseLemmas Lattice LatticeSpec Ctm CtmSpec.
Open Scope Z_scope.
Open Scope res_scope.
Open Scope list_scope.

Lemma bind_inv {A B} (m : res A) (f : A -> res B) b :
  bind m f = Ok b -> exists a, m = Ok a /\ f a = Ok b.
Proof. destruct m; cbn; [eauto | discriminate]. Qed.

Ltac inv_bind H := let a := fresh "a" in let E := fresh "E" in
  apply bind_inv in H; destruct H as (a & E & H).

Lemma coord_dec (a b : coord) : {a = b} + {a <> b}.
Proof. exact (eq_dec a b). Qed.

Lemma cadd_assoc a b c : cadd (cadd a b) c = cadd a (cadd b c).
Proof. unfold cadd; cbn; f_equal; lia. Qed.
Lemma cadd_cneg a : cadd a (cneg a) = (0, 0).
Proof. unfold cadd, cneg; cbn; f_equal; lia. Qed.
Lemma cadd_0 a : cadd a (0, 0) = a.
Proof. destruct a; unfold cadd; cbn; f_equal; lia. Qed.

(** ** dictionaries built by a loop over distinct keys *)
Section DictLoop.
Context {V : Type}.
Lemma dget_combine (keys : list coord) (vs : list V) c :
  NoDup keys -> length vs = length keys ->
  forall i, nth_error keys i = Some c -> dget (combine keys vs) c = nth_error vs i.
Proof. revert vs; induction keys as [|k keys IH]; intros vs ND L i Hi; destruct i; try discriminate;
  destruct vs as [|v vs]; cbn in L; try discriminate; inversion ND; subst.
  - injection Hi as ->. cbn. destruct (eq_dec c c); [reflexivity|congruence].
  - cbn in Hi |- *. destruct (eq_dec c k) as [->|]; [exfalso; eauto using nth_error_In|].
    apply IH; [assumption|lia|assumption]. Qed.

Lemma keys_combine (keys : list coord) (vs : list V) : length vs = length keys ->
  map fst (combine keys vs) = keys.
Proof. revert vs; induction keys; intros [|v vs]; cbn; intros; try discriminate; auto. f_equal; auto. Qed.
Lemma vals_combine (keys : list coord) (vs : list V) : length vs = length keys ->
  map snd (combine keys vs) = vs.
Proof. revert vs; induction keys; intros [|v vs]; cbn; intros; try discriminate; auto. f_equal; auto. Qed.
End DictLoop.

Section Proofs.
Variables X Pj : Type.
Variables (proj44 proj42 : dirn -> list X -> res (Pj * Pj)).
Variables (fC1 fC2 : dirn -> X -> X -> Pj -> X) (fT : dirn -> X -> X -> Pj -> Pj -> X).
Variable normalize : X -> X.
Variable x0 : X.

Notation envt := (envt X).

Definition getd {A} `{EqDec A} (d : dict A X) (k : A) : X := match dget d k with Some x => x | None => x0 end.

Definition fields_of (f : coord -> coord) (sites : dict coord X) (e : envt) : fields X :=
  mkF (fun v => getd sites (f v)) (fun v c => getd (eC e) (f v, c)) (fun v t => getd (eT e) (f v, t)).

(** every inequivalent site has its four corners and four edges *)
Definition complete (sites : dict coord X) (e : envt) : Prop :=
  (forall k c, In k (dkeys sites) -> In c corner_dirs -> In (k, c) (dkeys (eC e))) /\
  (forall k t, In k (dkeys sites) -> In t edge_dirs -> In (k, t) (dkeys (eT e))).

Definition is_state (st : ipeps X) (sites : dict coord X) (f : coord -> coord) : Prop :=
  i_sites st = Some sites /\ (forall v, i_v2s st v = Ok (f v)) /\ tiling_ok f sites.

Variables (st : ipeps X) (sites : dict coord X) (f : coord -> coord) (e : envt).
Hypothesis HS : is_state st sites f.
Hypothesis HC : complete sites e.
Let F := fields_of f sites e.

Lemma f_shift v w : f (cadd (f v) w) = f (cadd v w).
Proof. destruct HS as (_ & _ & ND & Hin & Hfix & TC). apply TC. apply Hfix, Hin. Qed.

Lemma dget_getd {A} `{EqDec A} (d : dict A X) k : In k (dkeys d) -> dget_exn d k = Ok (getd d k).
Proof. intros I. apply dget_Some_key in I as [v E]. unfold dget_exn, getd. rewrite E. reflexivity. Qed.

Lemma getC_ok v c : In c corner_dirs -> getC X e (f v) c = Ok (corner_at F v c).
Proof. intros I. destruct HS as (_ & _ & ND & Hin & _). unfold getC, F; cbn.
  apply dget_getd. apply HC; auto. Qed.
Lemma getT_ok v t : In t edge_dirs -> getT X e (f v) t = Ok (edge_at F v t).
Proof. intros I. destruct HS as (_ & _ & ND & Hin & _). unfold getT, F; cbn.
  apply dget_getd. apply HC; auto. Qed.
Lemma site_ok v : ipeps_site st v = Ok (site_at F v).
Proof. destruct HS as (E & E2 & ND & Hin & _). unfold ipeps_site, F; cbn. rewrite E, E2. cbn.
  apply dget_getd; auto. Qed.

Lemma c2x2_ok cv t1 t2 v : In cv corner_dirs -> In t1 edge_dirs -> In t2 edge_dirs ->
  c2x2_t X cv t1 t2 st e v = Ok [corner_at F v cv; edge_at F v t1; edge_at F v t2; site_at F v].
Proof. intros. unfold c2x2_t. destruct HS as (E & E2 & _). rewrite E2. cbn [bind].
  rewrite getC_ok, getT_ok, getT_ok, site_ok by assumption. reflexivity. Qed.

Ltac peel := repeat match goal with
  | |- Ok _ = Ok _ => f_equal | |- _ :: _ = _ :: _ => f_equal
  | |- corner_at _ _ _ = corner_at _ _ _ => f_equal
  | |- edge_at _ _ _ = edge_at _ _ _ => f_equal
  | |- site_at _ _ = site_at _ _ => f_equal
  | |- (_, _) = (_, _) => f_equal end.
Ltac indir := cbn; tauto.
Ltac fin_c2 := first [rewrite c2x2_ok by indir | idtac].

Lemma tensors44_ok d dv v : dir_of dv = Some d -> tensors44 X d st e v = Ok (block44 F dv v).
Proof. intros Hd. destruct v as [x y].
  unfold dir_of in Hd.
  repeat (destruct (eq_dec dv _) as [->|] in Hd; [injection Hd as <- | ]); try discriminate;
  unfold tensors44, c2x2_LU_t, c2x2_RU_t, c2x2_RD_t, c2x2_LD_t, app2;
  rewrite !c2x2_ok by indir; cbn [bind app]; unfold block44, enlarged, minus, cadd, cneg, rotL, rotR;
  cbn [fst snd app Z.opp];
  peel; lia. Qed.

Lemma tensors42_ok d dv v : dir_of dv = Some d -> tensors42 X d st e v = Ok (block42 F dv v).
Proof. intros Hd. destruct v as [x y].
  unfold dir_of in Hd.
  repeat (destruct (eq_dec dv _) as [->|] in Hd; [injection Hd as <- | ]); try discriminate;
  unfold tensors42, c2x2_LU_t, c2x2_RU_t, c2x2_RD_t, c2x2_LD_t, app2;
  rewrite !c2x2_ok by indir; cbn [bind app]; unfold block42, enlarged, minus, cadd, cneg, rotL, rotR;
  cbn [fst snd app Z.opp];
  peel; lia. Qed.

(** fields only depend on the site of a vertex *)
Lemma F_f v : site_at F (f v) = site_at F v /\ (forall c, corner_at F (f v) c = corner_at F v c) /\
  (forall c, edge_at F (f v) c = edge_at F v c).
Proof. destruct HS as (_ & _ & ND & Hin & Hfix & _). unfold F; cbn. rewrite (Hfix (f v)) by apply Hin. auto. Qed.
Lemma F_cong v w : f v = f w -> site_at F v = site_at F w /\ (forall c, corner_at F v c = corner_at F w c) /\
  (forall c, edge_at F v c = edge_at F w c).
Proof. unfold F; cbn. intros ->. auto. Qed.
Lemma enlarged_cong v w t : f v = f w -> enlarged F v t = enlarged F w t.
Proof. intros E. unfold enlarged. destruct (F_cong v w E) as (-> & H1 & H2). rewrite H1, !H2. reflexivity. Qed.
Lemma f_minus v w d : f v = f w -> f (minus v d) = f (minus w d).
Proof. destruct HS as (_ & _ & ND & Hin & Hfix & TC). unfold minus. apply TC. Qed.
Lemma block44_cong dv v w : f v = f w -> block44 F dv v = block44 F dv w.
Proof. intros E. unfold block44. f_equal; [|f_equal; [|f_equal]]; apply enlarged_cong; repeat apply f_minus; assumption. Qed.
Lemma block42_cong dv v w : f v = f w -> block42 F dv v = block42 F dv w.
Proof. intros E. unfold block42. f_equal; apply enlarged_cong; repeat apply f_minus; assumption. Qed.

Definition spec_proj (m : pmethod) (d : dirn) (dv v : coord) : res (Pj * Pj) :=
  match m with
  | M4X4 => proj44 d (block44 F dv v)
  | M4X2 => proj42 d (block42 F dv v)
  | Mother => Err ValueError
  end.
Lemma get_projectors_ok m d dv v : dir_of dv = Some d ->
  get_projectors X Pj proj44 proj42 m d st e v = spec_proj m d dv v.
Proof. intros Hd. destruct m; unfold get_projectors, spec_proj; [rewrite (tensors44_ok d dv v Hd)|rewrite (tensors42_ok d dv v Hd)|]; reflexivity. Qed.
Lemma spec_proj_cong m d dv v w : f v = f w -> spec_proj m d dv v = spec_proj m d dv w.
Proof. intros E. destruct m; unfold spec_proj; [rewrite (block44_cong dv v w E)|rewrite (block42_cong dv v w E)|]; reflexivity. Qed.

(** *** the loops *)
Lemma projector_loop_spec m d dv keys P Pt :
  dir_of dv = Some d -> NoDup keys ->
  projector_loop X Pj proj44 proj42 m d st e keys = Ok (P, Pt) ->
  forall c, In c keys -> exists p pt, spec_proj m d dv c = Ok (p, pt) /\ dget P c = Some p /\ dget Pt c = Some pt.
Proof.
  intros Hd ND. unfold projector_loop.
  enough (G : forall keys acc P Pt, NoDup keys ->
     foldM (fun (acc : dict coord Pj * dict coord Pj) c => '(p, pt) <- get_projectors X Pj proj44 proj42 m d st e c ;;
                      Ok (dset (fst acc) c p, dset (snd acc) c pt)) keys acc = Ok (P, Pt) ->
     (forall c, In c keys -> exists p pt, spec_proj m d dv c = Ok (p, pt) /\ dget P c = Some p /\ dget Pt c = Some pt) /\
     (forall c, ~ In c keys -> dget P c = dget (fst acc) c /\ dget Pt c = dget (snd acc) c)).
  { intros H c I. eapply G in H; [|assumption]. apply H; assumption. }
  clear keys P Pt ND. induction keys as [|k keys IH]; intros acc P Pt ND H; cbn in H.
  - injection H as ->. split; [intros ? []|auto].
  - inversion ND as [|? ? Hk ND']; subst.
    inv_bind H. inv_bind E. destruct a0 as [p pt]. injection E as <-.
    rewrite (get_projectors_ok m d dv k Hd) in E0.
    apply IH in H; [|assumption]. destruct H as [H1 H2]. split.
    + intros c [->|I]; [|auto]. exists p, pt. split; [assumption|]. destruct (H2 c Hk) as [-> ->]. cbn.
      rewrite !dget_dset_same. auto.
    + intros c Hc. destruct (H2 c) as [-> ->]; [intros I; apply Hc; right; assumption|]. cbn.
      rewrite !dget_dset_other by (intros ->; apply Hc; left; reflexivity). auto.
Qed.

Lemma projector_loop_total m d dv keys :
  dir_of dv = Some d -> (forall c, In c keys -> exists p, spec_proj m d dv c = Ok p) ->
  exists P Pt, projector_loop X Pj proj44 proj42 m d st e keys = Ok (P, Pt).
Proof.
  intros Hd. unfold projector_loop. generalize (@nil (coord * Pj), @nil (coord * Pj)).
  induction keys as [|k keys IH]; intros acc Hp.
  - destruct acc; cbn; eauto.
  - cbn. rewrite (get_projectors_ok m d dv k Hd). destruct (Hp k (or_introl eq_refl)) as [[p pt] ->]. cbn.
    apply IH. intros; apply Hp; right; assumption.
Qed.

(** expected new tensors *)
Definition spec_n1 (d : dirn) (proj : coord -> Pj * Pj) (dv v : coord) : X :=
  normalize (new_corner_right (fC1 d) F proj dv v).
Definition spec_n2 (d : dirn) (proj : coord -> Pj * Pj) (dv v : coord) : X :=
  normalize (new_corner_left (fC2 d) F proj dv v).
Definition spec_nt (d : dirn) (proj : coord -> Pj * Pj) (dv v : coord) : X :=
  normalize (new_edge (fT d) F proj dv v).

Lemma absorb_ok d dv (P Pt : dict coord Pj) (proj : coord -> Pj * Pj) c :
  dir_of dv = Some d -> In c (dkeys sites) ->
  (forall k, In k (dkeys sites) -> dget P k = Some (fst (proj k)) /\ dget Pt k = Some (snd (proj k))) ->
  (forall v, proj (f v) = proj v) ->
  absorb_truncate X Pj fC1 fC2 fT d st e P Pt c =
    Ok (new_corner_right (fC1 d) F proj dv c, new_corner_left (fC2 d) F proj dv c, new_edge (fT d) F proj dv c).
Proof.
  intros Hd Hc HP Hpf. destruct HS as (E & E2 & ND & Hin & Hfix & TC).
  assert (Ec : f c = c) by auto.
  assert (GC : forall cv, In cv corner_dirs -> getC X e c cv = Ok (corner_at F c cv))
    by (intros cv I; rewrite <- Ec at 1; apply getC_ok; assumption).
  assert (GT : forall cv, In cv edge_dirs -> getT X e c cv = Ok (edge_at F c cv))
    by (intros cv I; rewrite <- Ec at 1; apply getT_ok; assumption).
  assert (W : forall c1 t1 t t2 c2 sh1 sh2 d, In c1 corner_dirs -> In c2 corner_dirs -> In t1 edge_dirs -> In t edge_dirs ->
     In t2 edge_dirs ->
     absorb_with X Pj fC1 fC2 fT c1 t1 t t2 c2 sh1 sh2 d st e P Pt c =
     Ok (fC1 d (corner_at F c c1) (edge_at F c t1) (snd (proj (cadd c sh1))),
         fC2 d (corner_at F c c2) (edge_at F c t2) (fst (proj c)),
         fT d (edge_at F c t) (site_at F c) (snd (proj c)) (fst (proj (cadd c sh1))))).
  { intros c1 t1 t t2 c2 sh1 sh2 d' I1 I2 I3 I4 I5. unfold absorb_with. rewrite !E2. cbn [bind].
    rewrite (GC c1), (GT t1), (GT t), (GT t2), (GC c2), site_ok by assumption. cbn [bind].
    destruct (HP c Hc) as [P1 P2]. destruct (HP (f (cadd c sh1)) (Hin _)) as [P3 P4].
    unfold dget_exn. rewrite P1, P2, P3, P4, !site_ok. cbn [bind]. rewrite Hpf. reflexivity. }
  unfold dir_of in Hd.
  repeat (destruct (eq_dec dv _) as [->|] in Hd; [injection Hd as <- | ]); try discriminate;
  unfold absorb_truncate; rewrite W by indir; reflexivity.
Qed.

Lemma absorb_loop_spec d dv P Pt proj keys :
  dir_of dv = Some d -> NoDup keys -> incl keys (dkeys sites) ->
  (forall k, In k (dkeys sites) -> dget P k = Some (fst (proj k)) /\ dget Pt k = Some (snd (proj k))) ->
  (forall v, proj (f v) = proj v) ->
  absorb_loop X Pj fC1 fC2 fT normalize d st e P Pt keys =
   Ok (map (fun c => (c, spec_n1 d proj dv c)) keys, map (fun c => (c, spec_n2 d proj dv c)) keys,
       map (fun c => (c, spec_nt d proj dv c)) keys).
Proof.
  intros Hd ND HI HP Hpf. unfold absorb_loop.
  enough (G : forall keys a1 a2 a3, NoDup keys -> incl keys (dkeys sites) ->
    (forall c, In c keys -> ~ In c (dkeys a1) /\ ~ In c (dkeys a2) /\ ~ In c (dkeys a3)) ->
    foldM (fun (acc : dict coord X * dict coord X * dict coord X) c =>
           '(n1, n2, nt) <- absorb_truncate X Pj fC1 fC2 fT d st e P Pt c ;;
           let '(d1, d2, dt) := acc in
           Ok (dset d1 c (normalize n1), dset d2 c (normalize n2), dset dt c (normalize nt))) keys (a1, a2, a3) =
    Ok (a1 ++ map (fun c => (c, spec_n1 d proj dv c)) keys, a2 ++ map (fun c => (c, spec_n2 d proj dv c)) keys,
       a3 ++ map (fun c => (c, spec_nt d proj dv c)) keys)).
  { apply (G keys [] [] []); auto. }
  clear keys ND HI. induction keys as [|k keys IH]; intros a1 a2 a3 ND HI HD.
  - cbn. rewrite !app_nil_r. reflexivity.
  - inversion ND as [|? ? Hk ND']; subst. cbn [foldM map].
    rewrite (absorb_ok d dv P Pt proj k Hd) by (auto; apply HI; left; reflexivity). cbn [bind].
    destruct (HD k (or_introl eq_refl)) as (D1 & D2 & D3).
    rewrite !dset_new by (apply dget_None; assumption).
    rewrite IH.
    + rewrite <- !app_assoc. reflexivity.
    + assumption.
    + intros c I; apply HI; right; assumption.
    + intros c I. destruct (HD c (or_intror I)) as (G1 & G2 & G3). unfold dkeys in *. rewrite !map_app. cbn.
      assert (c <> k) by (intros ->; auto).
      repeat split; rewrite in_app_iff; cbn; intuition.
Qed.

Lemma combine_map {A B} (g : A -> B) (l : list A) : combine l (map g l) = map (fun c => (c, g c)) l.
Proof. induction l; cbn; f_equal; auto. Qed.

Lemma dget_map_key (g : coord -> X) keys c : In c keys -> dget (map (fun c => (c, g c)) keys) c = Some (g c).
Proof. induction keys as [|k keys IH]; intros I; [destruct I|]. cbn.
  destruct (eq_dec c k) as [->|N]; [reflexivity|]. apply IH. destruct I; [congruence|assumption]. Qed.
End Proofs.

Section Assign.
Variable X : Type.
Variables (st : ipeps X) (f : coord -> coord).
Hypothesis Hv : forall v, i_v2s st v = Ok (f v).

Lemma rel_distinct d : let '(r1, r2, rt) := rel_vecs d in r1 <> r2.
Proof. destruct d; cbn; congruence. Qed.

Lemma assign_loop_spec d dv (g1 g2 gt : coord -> X) (n1 n2 nt : dict coord X) keys e :
  NoDup keys ->
  (forall c c', In c keys -> In c' keys -> f (csub c dv) = f (csub c' dv) -> c = c') ->
  (forall c, In c keys -> dget n1 c = Some (g1 c) /\ dget n2 c = Some (g2 c) /\ dget nt c = Some (gt c)) ->
  exists e', assign_loop X d dv st n1 n2 nt keys e = Ok e' /\
  let '(r1, r2, rt) := rel_vecs d in
  (forall c, In c keys -> dget (eC e') (f (csub c dv), r1) = Some (g1 c) /\
                         dget (eC e') (f (csub c dv), r2) = Some (g2 c) /\
                         dget (eT e') (f (csub c dv), rt) = Some (gt c)) /\
  (forall k c, (c <> r1 /\ c <> r2) \/ ~ In k (map (fun c => f (csub c dv)) keys) ->
     dget (eC e') (k, c) = dget (eC e) (k, c)) /\
  (forall k t, t <> rt \/ ~ In k (map (fun c => f (csub c dv)) keys) ->
     dget (eT e') (k, t) = dget (eT e) (k, t)).
Proof.
  unfold assign_loop. pose proof (rel_distinct d) as RD. destruct (rel_vecs d) as [[r1 r2] rt].
  revert e. induction keys as [|k keys IH]; intros e ND Inj HG.
  - exists e. cbn. split; [reflexivity|]. split; [intros ? []|]. auto.
  - inversion ND as [|? ? Hk ND']; subst. cbn [foldM].
    change (fst k - fst dv, snd k - snd dv) with (csub k dv). rewrite Hv. cbn [bind].
    destruct (HG k (or_introl eq_refl)) as (G1 & G2 & G3). unfold dget_exn at 1 2 3. rewrite G1, G2, G3. cbn [bind].
    set (e1 := mkE _ _).
    destruct (IH e1 ND') as (e' & He' & A1 & A2 & A3).
    { intros c c' I I'. apply Inj; right; assumption. }
    { intros c I; apply HG; right; assumption. }
    exists e'. split; [exact He'|].
    assert (Nk : ~ In (f (csub k dv)) (map (fun c => f (csub c dv)) keys)).
    { intros I. apply in_map_iff in I as (c & Ec & Ic). apply Hk.
      rewrite <- (Inj c k (or_intror Ic) (or_introl eq_refl) Ec). assumption. }
    split; [|split].
    + intros c [<-|Ic]; [|apply A1; assumption].
      rewrite !A2 by (right; assumption). rewrite A3 by (right; assumption). subst e1; cbn [eC eT].
      rewrite !dget_dset_same. rewrite dget_dset_other by congruence. rewrite dget_dset_same. auto.
    + intros k' c Hc. rewrite A2.
      * subst e1; cbn [eC]. rewrite !dget_dset_other; [reflexivity| |].
        -- intros [= -> ->]. destruct Hc as [[? ?]|Hc]; [congruence|]. apply Hc. left. reflexivity.
        -- intros [= -> ->]. destruct Hc as [[? ?]|Hc]; [congruence|]. apply Hc. left. reflexivity.
      * destruct Hc as [|Hc]; [left; assumption|right; intros I; apply Hc; right; assumption].
    + intros k' c Hc. rewrite A3.
      * subst e1; cbn [eT]. rewrite !dget_dset_other; [reflexivity|].
        intros [= -> ->]. destruct Hc as [?|Hc]; [congruence|]. apply Hc. left. reflexivity.
      * destruct Hc as [|Hc]; [left; assumption|right; intros I; apply Hc; right; assumption].
Qed.
End Assign.

Section Main.
Variables X Pj : Type.
Variables (proj44 proj42 : dirn -> list X -> res (Pj * Pj)).
Variables (fC1 fC2 : dirn -> X -> X -> Pj -> X) (fT : dirn -> X -> X -> Pj -> Pj -> X).
Variable normalize : X -> X.
Variable x0 : X.
Variables (st : ipeps X) (sites : dict coord X) (f : coord -> coord) (e : envt X).
Hypothesis HS : is_state X st sites f.
Hypothesis HC : complete X sites e.
Let F := fields_of X x0 f sites e.
Let sproj := spec_proj X Pj proj44 proj42 x0 sites f e.

Lemma move_core_spec m d dv : dir_of dv = Some d -> sites <> [] -> 
  forall new, move_core X Pj proj44 proj42 fC1 fC2 fT normalize m d st e (dkeys sites) = Ok new ->
  exists proj, (forall v, sproj m d dv v = Ok (proj v)) /\ (forall v, proj (f v) = proj v) /\
   new = map (spec_n1 X Pj fC1 normalize x0 sites f e d proj dv) (dkeys sites) ++
         map (spec_n2 X Pj fC2 normalize x0 sites f e d proj dv) (dkeys sites) ++
         map (spec_nt X Pj fT normalize x0 sites f e d proj dv) (dkeys sites).
Proof.
  intros Hd Hne new H. unfold move_core in H. inv_bind H. destruct a as [P Pt].
  pose proof HS as (Es & Ev & ND & Hin & Hfix & TC).
  pose proof (projector_loop_spec X Pj proj44 proj42 normalize x0 st sites f e HS HC m d dv (dkeys sites) P Pt Hd ND E) as HP.
  assert (Hdef : exists pp : Pj * Pj, True).
  { destruct (HP (f (0, 0)) (Hin _)) as (p & pt & _). exists (p, pt); trivial. }
  destruct Hdef as [pp _].
  set (proj := fun v => match sproj m d dv v with Ok q => q | Err _ => pp end).
  assert (Hproj : forall v, sproj m d dv v = Ok (proj v)).
  { intros v. unfold proj. unfold sproj.
    destruct (HP (f v) (Hin _)) as (p & pt & E1 & _).
    rewrite (spec_proj_cong X Pj proj44 proj42 x0 st sites f e HS m d dv (f v) v) in E1 by (apply Hfix, Hin).
    rewrite E1. reflexivity. }
  assert (Hpf : forall v, proj (f v) = proj v).
  { intros v. unfold proj, sproj. rewrite (spec_proj_cong X Pj proj44 proj42 x0 st sites f e HS m d dv (f v) v) by (apply Hfix, Hin).
    reflexivity. }
  exists proj. split; [assumption|]. split; [assumption|].
  rewrite (absorb_loop_spec X Pj proj44 proj42 fC1 fC2 fT normalize x0 st sites f e HS HC d dv P Pt proj) in H; auto using incl_refl.
  - cbn in H. injection H as <-. unfold dvals. rewrite !map_map. cbn [snd]. reflexivity.
  - intros k Hk. destruct (HP k Hk) as (p & pt & E1 & E2 & E3).
    specialize (Hproj k). unfold sproj in Hproj. rewrite E1 in Hproj. injection Hproj as Q. rewrite E2, E3, <- Q. auto.
Qed.

Lemma dir_vecs d dv : dir_of dv = Some d -> rel_vecs d = (cadd dv (rotR dv), cadd dv (rotL dv), dv).
Proof. unfold dir_of. intros Hd.
  repeat (destruct (eq_dec dv _) as [->|] in Hd; [injection Hd as <- | ]); try discriminate; reflexivity. Qed.

Lemma csub_minus a b : csub a b = minus a b.
Proof. reflexivity. Qed.

Lemma move_assign m d dv : dir_of dv = Some d -> m <> Mother -> sites <> [] ->
  forall new, move_core X Pj proj44 proj42 fC1 fC2 fT normalize m d st e (dkeys sites) = Ok new ->
  exists e' proj, ctm_move X Pj proj44 proj42 fC1 fC2 fT normalize m dv st e = Ok e' /\
   (forall v, sproj m d dv v = Ok (proj v)) /\
   moved (fun a b p => normalize (fC1 d a b p)) (fun a b p => normalize (fC2 d a b p))
         (fun a b p q => normalize (fT d a b p q)) F (fields_of X x0 f sites e') proj dv /\
   complete X sites e' /\
   (forall k c, ~ In k (dkeys sites) -> dget (eC e') (k, c) = dget (eC e) (k, c) /\ dget (eT e') (k, c) = dget (eT e) (k, c)) /\
   (forall k c, In k (dkeys sites) -> c <> cadd dv (rotR dv) -> c <> cadd dv (rotL dv) -> dget (eC e') (k, c) = dget (eC e) (k, c)) /\
   (forall k t, In k (dkeys sites) -> t <> dv -> dget (eT e') (k, t) = dget (eT e) (k, t)).
Proof.
  intros Hd Hm Hne new Hnew. pose proof HS as (Es & Ev & ND & Hin & Hfix & TC).
  destruct (move_core_spec m d dv Hd Hne new Hnew) as (proj & Hproj & Hpf & En).
  set (s1 := spec_n1 X Pj fC1 normalize x0 sites f e d proj dv) in *.
  set (s2 := spec_n2 X Pj fC2 normalize x0 sites f e d proj dv) in *.
  set (s3 := spec_nt X Pj fT normalize x0 sites f e d proj dv) in *.
  set (keys := dkeys sites) in *.
  assert (L1 : firstn (length keys) new = map s1 keys).
  { rewrite En. replace (length keys) with (length (map s1 keys)) by apply map_length. rewrite firstn_app.
    rewrite Nat.sub_diag, firstn_all. cbn. apply app_nil_r. }
  assert (L2 : firstn (length keys) (skipn (length keys) new) = map s2 keys).
  { rewrite En. replace (length keys) with (length (map s1 keys)) at 2 by apply map_length.
    rewrite skipn_app, Nat.sub_diag, skipn_all. cbn.
    replace (length keys) with (length (map s2 keys)) by apply map_length. rewrite firstn_app.
    rewrite Nat.sub_diag, firstn_all. cbn. apply app_nil_r. }
  assert (L3 : skipn (2 * length keys) new = map s3 keys).
  { rewrite En, app_assoc. replace (2 * length keys)%nat with (length (map s1 keys ++ map s2 keys))
      by (rewrite app_length, !map_length; lia).
    rewrite skipn_app, Nat.sub_diag, skipn_all. reflexivity. }
  assert (GM : forall (g : coord -> X), dict_of (combine keys (map g keys)) = map (fun c => (c, g c)) keys).
  { intros g. rewrite combine_map. apply dict_of_nodup. rewrite map_map. cbn. rewrite map_id. assumption. }
  assert (Inj : forall c c', In c keys -> In c' keys -> f (csub c dv) = f (csub c' dv) -> c = c').
  { intros c c' I I' H. rewrite <- (Hfix c I), <- (Hfix c' I').
    apply (TC _ _ dv) in H.
    assert (S0 : forall a : coord, cadd (csub a dv) dv = a)
      by (intros [a b]; unfold cadd, csub; cbn; f_equal; lia).
    rewrite !S0 in H. exact H. }
  destruct (assign_loop_spec X st f Ev d dv s1 s2 s3 (map (fun c => (c, s1 c)) keys) (map (fun c => (c, s2 c)) keys)
     (map (fun c => (c, s3 c)) keys) keys e ND Inj) as (e' & He' & HA).
  { intros c I. rewrite !dget_map_key by assumption. auto. }
  rewrite (dir_vecs d dv Hd) in HA. cbn beta iota in HA. destruct HA as (A1 & A2 & A3).
  assert (NF : forall k, ~ In k keys -> ~ In k (map (fun c => f (csub c dv)) keys)).
  { intros k Hk I. apply in_map_iff in I as (c & <- & _). apply Hk, Hin. }
  assert (Fm : forall v, f (minus v dv) = f (csub (f v) dv)).
  { intros v. change (csub (f v) dv) with (cadd (f v) (cneg dv)). symmetry. apply (f_shift X st sites f HS). }
  assert (Fc : forall v w, f v = f w -> f (cadd v (rotR dv)) = f (cadd w (rotR dv))) by (intros; apply TC; assumption).
  assert (Pc : forall v w, f v = f w -> proj v = proj w).
  { intros v w Hvw. rewrite <- (Hpf v), Hvw. apply Hpf. }
  assert (S1 : forall v, s1 (f v) = s1 v).
  { intros v. unfold s1, spec_n1, new_corner_right.
    destruct (F_f X x0 st sites f e HS v) as (_ & -> & ->).
    rewrite (Pc (cadd (f v) (rotR dv)) (cadd v (rotR dv))) by (apply Fc, Hfix, Hin). reflexivity. }
  assert (S2 : forall v, s2 (f v) = s2 v).
  { intros v. unfold s2, spec_n2, new_corner_left.
    destruct (F_f X x0 st sites f e HS v) as (_ & -> & ->). rewrite Hpf. reflexivity. }
  assert (S3 : forall v, s3 (f v) = s3 v).
  { intros v. unfold s3, spec_nt, new_edge.
    destruct (F_f X x0 st sites f e HS v) as (-> & _ & ->). rewrite Hpf.
    rewrite (Pc (cadd (f v) (rotR dv)) (cadd v (rotR dv))) by (apply Fc, Hfix, Hin). reflexivity. }
  exists e', proj. split; [|split; [assumption|split; [|split; [|split; [|split]]]]].
  - unfold ctm_move. destruct m; [| |congruence]; rewrite Es, Hd; fold keys; rewrite Hnew; cbn [bind];
    rewrite L1, L2, L3, !GM; exact He'.
  - unfold moved, F, fields_of; cbn [site_at corner_at edge_at].
    split; [reflexivity|]. split; [|split; [|split; [|split]]].
    + intros v. unfold getd. rewrite Fm. destruct (A1 (f v) (Hin v)) as (-> & _). rewrite S1. reflexivity.
    + intros v. unfold getd. rewrite Fm. destruct (A1 (f v) (Hin v)) as (_ & -> & _). rewrite S2. reflexivity.
    + intros v. unfold getd. rewrite Fm. destruct (A1 (f v) (Hin v)) as (_ & _ & ->). rewrite S3. reflexivity.
    + intros v c H1 H2. unfold getd. rewrite A2 by (left; auto). reflexivity.
    + intros v t H1. unfold getd. rewrite A3 by (left; auto). reflexivity.
  - (* completeness: a stored entry stays stored *)
    assert (Cov : forall k, In k keys -> exists c, In c keys /\ f (csub c dv) = k).
    { intros k Hk. exists (f (cadd k dv)). split; [apply Hin|]. change (csub (f (cadd k dv)) dv) with (cadd (f (cadd k dv)) (cneg dv)).
      rewrite (f_shift X st sites f HS). rewrite cadd_assoc, cadd_cneg, cadd_0. auto. }
    split; intros k c Hk Hc.
    + apply dget_Some_key. destruct (Cov k Hk) as (c0 & I0 & <-). destruct (A1 c0 I0) as (B1 & B2 & _).
      destruct (eq_dec c (cadd dv (rotR dv))) as [->|N1]; [eauto|].
      destruct (eq_dec c (cadd dv (rotL dv))) as [->|N2]; [eauto|].
      rewrite A2 by (left; auto). apply dget_Some_key. apply HC; auto.
    + apply dget_Some_key. destruct (Cov k Hk) as (c0 & I0 & <-). destruct (A1 c0 I0) as (_ & _ & B3).
      destruct (eq_dec c dv) as [->|N1]; [eauto|].
      rewrite A3 by (left; auto). apply dget_Some_key. apply HC; auto.
  - intros k c Hk. split; [apply A2|apply A3]; right; apply NF; assumption.
  - intros k c _ H1 H2. apply A2. auto.
  - intros k c _ H1. apply A3. auto.
Qed.

Lemma move_core_total m d dv : dir_of dv = Some d ->
  (forall c, In c (dkeys sites) -> exists p, sproj m d dv c = Ok p) -> sites <> [] ->
  exists new, move_core X Pj proj44 proj42 fC1 fC2 fT normalize m d st e (dkeys sites) = Ok new.
Proof.
  intros Hd Hp Hne. pose proof HS as (Es & Ev & ND & Hin & Hfix & TC).
  destruct (projector_loop_total X Pj proj44 proj42 normalize x0 st sites f e HS HC m d dv (dkeys sites) Hd Hp) as (P & Pt & E).
  unfold move_core. rewrite E. cbn [bind].
  pose proof (projector_loop_spec X Pj proj44 proj42 normalize x0 st sites f e HS HC m d dv (dkeys sites) P Pt Hd ND E) as HP.
  destruct (Hp (f (0,0)) (Hin _)) as [pp _].
  set (proj := fun v => match sproj m d dv v with Ok q => q | Err _ => pp end).
  assert (Hpf : forall v, proj (f v) = proj v).
  { intros v. unfold proj, sproj. rewrite (spec_proj_cong X Pj proj44 proj42 x0 st sites f e HS m d dv (f v) v) by (apply Hfix, Hin).
    reflexivity. }
  rewrite (absorb_loop_spec X Pj proj44 proj42 fC1 fC2 fT normalize x0 st sites f e HS HC d dv P Pt proj); auto using incl_refl.
  - cbn. eauto.
  - intros k Hk. destruct (HP k Hk) as (p & pt & E1 & E2 & E3). unfold proj, sproj. rewrite E1, E2, E3. auto.
Qed.
End Main.
