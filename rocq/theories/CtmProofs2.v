From Verif Require Import Base BaseLemmas Lattice LatticeSpec Ctm CtmSpec CtmProofs.
Open Scope Z_scope.
Open Scope res_scope.
Open Scope list_scope.

(** two fields agree up to a translation *)
Definition translated {X} (w : coord) (F G : fields X) : Prop :=
  (forall v, site_at G v = site_at F (cadd v w)) /\
  (forall v c, In c corner_dirs -> corner_at G v c = corner_at F (cadd v w) c) /\
  (forall v t, In t edge_dirs -> edge_at G v t = edge_at F (cadd v w) t).

Definition succeeds {A} (r : res A) : Prop := exists p, r = Ok p.

Section Moves.
Variables X Pj : Type.
Variables (proj44 proj42 : dirn -> list X -> res (Pj * Pj)).
Variables (fC1 fC2 : dirn -> X -> X -> Pj -> X) (fT : dirn -> X -> X -> Pj -> Pj -> X).
Variable normalize : X -> X.
Variable x0 : X.
Notation move := (ctm_move X Pj proj44 proj42 fC1 fC2 fT normalize).

Definition proj_spec (m : pmethod) (d : dirn) (F : fields X) (dv v : coord) : res (Pj * Pj) :=
  match m with
  | M4X4 => proj44 d (block44 F dv v)
  | M4X2 => proj42 d (block42 F dv v)
  | Mother => Err ValueError
  end.

Lemma nonempty (f : coord -> coord) (sites : dict coord X) : tiling_ok f sites -> sites <> [].
Proof. intros (_ & Hin & _) ->. exact (Hin (0, 0)). Qed.

Lemma move_local m d dv st sites f e e' :
  is_state X st sites f -> complete X sites e -> dir_of dv = Some d ->
  move m dv st e = Ok e' ->
  exists proj,
   (forall v, proj_spec m d (fields_of X x0 f sites e) dv v = Ok (proj v)) /\
   moved (fun a b p => normalize (fC1 d a b p)) (fun a b p => normalize (fC2 d a b p))
         (fun a b p q => normalize (fT d a b p q))
         (fields_of X x0 f sites e) (fields_of X x0 f sites e') proj dv /\
   complete X sites e' /\
   (forall k c, ~ In k (dkeys sites) -> dget (eC e') (k, c) = dget (eC e) (k, c) /\ dget (eT e') (k, c) = dget (eT e) (k, c)) /\
   (forall k c, c <> cadd dv (rotR dv) -> c <> cadd dv (rotL dv) -> dget (eC e') (k, c) = dget (eC e) (k, c)) /\
   (forall k t, t <> dv -> dget (eT e') (k, t) = dget (eT e) (k, t)).
Proof.
  intros HS HC Hd H. pose proof (proj2 (proj2 HS)) as HT. pose proof (nonempty f sites HT) as Hne.
  assert (Hm : m <> Mother) by (intros ->; cbn in H; discriminate).
  pose proof H as H'. unfold ctm_move in H'. pose proof (proj1 HS) as Es.
  rewrite Es, Hd in H'. assert (exists new, move_core X Pj proj44 proj42 fC1 fC2 fT normalize m d st e (dkeys sites) = Ok new) as [new Hnew].
  { destruct m; [| |congruence]; apply bind_inv in H'; destruct H' as (new & Hn & _); eauto. }
  destruct (move_assign X Pj proj44 proj42 fC1 fC2 fT normalize x0 st sites f e HS HC m d dv Hd Hm Hne new Hnew)
    as (e2 & proj & He2 & Hp & Hmv & Hc & H1 & H2 & H3).
  rewrite He2 in H. injection H as ->. exists proj.
  split; [exact Hp|]. split; [exact Hmv|]. split; [exact Hc|]. split; [exact H1|].
  split.
  - intros k c N1 N2. destruct (in_dec eq_dec k (dkeys sites)) as [I|I]; [apply H2; auto|apply H1; auto].
  - intros k c N1. destruct (in_dec eq_dec k (dkeys sites)) as [I|I]; [apply H3; auto|apply H1; auto].
Qed.

Lemma move_succeeds m d dv st sites f e :
  is_state X st sites f -> complete X sites e -> dir_of dv = Some d -> m <> Mother ->
  ((exists e', move m dv st e = Ok e') <->
   (forall v, succeeds (proj_spec m d (fields_of X x0 f sites e) dv v))).
Proof.
  intros HS HC Hd Hm. pose proof (proj2 (proj2 HS)) as HT. pose proof (nonempty f sites HT) as Hne. split.
  - intros [e' H] v. destruct (move_local m d dv st sites f e e' HS HC Hd H) as (proj & Hp & _).
    exists (proj v). apply Hp.
  - intros Hp. destruct (move_core_total X Pj proj44 proj42 fC1 fC2 fT normalize x0 st sites f e HS HC m d dv Hd) as [new Hnew].
    + intros c _. apply Hp.
    + assumption.
    + destruct (move_assign X Pj proj44 proj42 fC1 fC2 fT normalize x0 st sites f e HS HC m d dv Hd Hm Hne new Hnew)
        as (e2 & proj & He2 & _). eauto.
Qed.

Lemma move_invalid_dir m dv st e : dir_of dv = None -> i_sites st <> None -> move m dv st e = Err ValueError.
Proof. intros Hd Hs. unfold ctm_move. destruct (i_sites st); [|congruence]. rewrite Hd. destruct m; reflexivity. Qed.
Lemma move_invalid_method dv st e : move Mother dv st e = Err ValueError.
Proof. reflexivity. Qed.

(** ** covariance *)
Ltac ctac := apply injective_projections; cbn; lia.
Lemma enlarged_tr w (F G : fields X) v t : translated w F G -> In t edge_dirs -> enlarged G v t = enlarged F (cadd v w) t.
Proof.
  intros (H1 & H2 & H3) I. unfold enlarged.
  assert (In (rotL t) edge_dirs) by (cbn in I; destruct I as [<-|[<-|[<-|[<-|[]]]]]; cbn; tauto).
  assert (In (cadd t (rotL t)) corner_dirs) by (cbn in I; destruct I as [<-|[<-|[<-|[<-|[]]]]]; cbn; tauto).
  rewrite H1, H2, !H3 by assumption. reflexivity.
Qed.
Lemma minus_cadd v w d : cadd (minus v d) w = minus (cadd v w) d.
Proof. ctac. Qed.
Lemma cadd_swap v w d : cadd (cadd v d) w = cadd (cadd v w) d.
Proof. ctac. Qed.
Lemma dir_edge dv d : dir_of dv = Some d -> In dv edge_dirs.
Proof. unfold dir_of. intros Hd.
  repeat (destruct (eq_dec dv _) as [->|] in Hd; [injection Hd as <- | ]); try discriminate; cbn; tauto. Qed.
Lemma edge_rot t : In t edge_dirs -> In (rotR t) edge_dirs /\ In (rotL t) edge_dirs /\ In (cneg t) edge_dirs /\
  In (cneg (rotR t)) edge_dirs /\ In (cadd t (rotR t)) corner_dirs /\ In (cadd t (rotL t)) corner_dirs.
Proof. cbn. intros [<-|[<-|[<-|[<-|[]]]]]; cbn; tauto. Qed.

Lemma block44_tr w (F G : fields X) dv d v : translated w F G -> dir_of dv = Some d -> block44 G dv v = block44 F dv (cadd v w).
Proof.
  intros HT Hd. apply dir_edge in Hd. destruct (edge_rot dv Hd) as (R1 & R2 & R3 & R4 & _).
  unfold block44. rewrite !(enlarged_tr w F G) by assumption. rewrite !minus_cadd. reflexivity.
Qed.
Lemma block42_tr w (F G : fields X) dv d v : translated w F G -> dir_of dv = Some d -> block42 G dv v = block42 F dv (cadd v w).
Proof.
  intros HT Hd. apply dir_edge in Hd. destruct (edge_rot dv Hd) as (R1 & R2 & R3 & R4 & _).
  unfold block42. rewrite !(enlarged_tr w F G) by assumption. rewrite !minus_cadd. reflexivity.
Qed.
Lemma proj_spec_tr w (F G : fields X) m dv d v : translated w F G -> dir_of dv = Some d ->
  proj_spec m d G dv v = proj_spec m d F dv (cadd v w).
Proof. intros HT Hd. destruct m; unfold proj_spec; [rewrite (block44_tr w F G dv d v HT Hd)|rewrite (block42_tr w F G dv d v HT Hd)|];
  reflexivity. Qed.

Lemma moved_tr w (F G F' G' : fields X) m d dv (pF pG : coord -> Pj * Pj) g1 g2 gt : translated w F G -> dir_of dv = Some d ->
  (forall v, proj_spec m d F dv v = Ok (pF v)) -> (forall v, proj_spec m d G dv v = Ok (pG v)) ->
  moved g1 g2 gt F F' pF dv -> moved g1 g2 gt G G' pG dv -> translated w F' G'.
Proof.
  intros HT Hd HF HG (F1 & F2 & F3 & F4 & F5 & F6) (G1 & G2 & G3 & G4 & G5 & G6).
  assert (PP : forall v, pG v = pF (cadd v w)).
  { intros v. specialize (HG v). rewrite (proj_spec_tr w F G m dv d v HT Hd), HF in HG. congruence. }
  pose proof (dir_edge dv d Hd) as Hdv. destruct (edge_rot dv Hdv) as (R1 & R2 & R3 & R4 & R5 & R6).
  assert (BK : forall v, exists u, v = minus u dv) by (intros v; exists (cadd v dv); ctac).
  destruct HT as (H1 & H2 & H3).
  split; [|split].
  - intros v. rewrite G1, F1. apply H1.
  - intros v c Hc. destruct (eq_dec c (cadd dv (rotR dv))) as [->|N1]; [|destruct (eq_dec c (cadd dv (rotL dv))) as [->|N2]].
    + destruct (BK v) as [u ->]. rewrite G2, minus_cadd, F2. unfold new_corner_right.
      rewrite H2, H3 by assumption. rewrite PP, cadd_swap. reflexivity.
    + destruct (BK v) as [u ->]. rewrite G3, minus_cadd, F3. unfold new_corner_left.
      rewrite H2, H3 by assumption. rewrite PP. reflexivity.
    + rewrite G5, F5 by assumption. apply H2; assumption.
  - intros v t Ht. destruct (eq_dec t dv) as [->|N1].
    + destruct (BK v) as [u ->]. rewrite G4, minus_cadd, F4. unfold new_edge.
      rewrite H1, H3 by assumption. rewrite !PP, cadd_swap. reflexivity.
    + rewrite G6, F6 by assumption. apply H3; assumption.
Qed.

(** a move only depends on the lattice fields, and commutes with translations *)
Lemma move_covariant w m dv st1 sites1 f1 e1 e1' st2 sites2 f2 e2 :
  is_state X st1 sites1 f1 -> complete X sites1 e1 ->
  is_state X st2 sites2 f2 -> complete X sites2 e2 ->
  translated w (fields_of X x0 f1 sites1 e1) (fields_of X x0 f2 sites2 e2) ->
  move m dv st1 e1 = Ok e1' ->
  exists e2', move m dv st2 e2 = Ok e2' /\ complete X sites1 e1' /\ complete X sites2 e2' /\
    translated w (fields_of X x0 f1 sites1 e1') (fields_of X x0 f2 sites2 e2').
Proof.
  intros S1 C1 S2 C2 HT H.
  assert (Hm : m <> Mother) by (intros ->; cbn in H; discriminate).
  destruct (dir_of dv) as [d|] eqn:Hd.
  2: { rewrite (move_invalid_dir m dv st1 e1 Hd) in H by (destruct S1 as (-> & _); congruence). discriminate. }
  destruct (move_local m d dv st1 sites1 f1 e1 e1' S1 C1 Hd H) as (p1 & Hp1 & M1 & C1' & _).
  destruct (proj2 (move_succeeds m d dv st2 sites2 f2 e2 S2 C2 Hd Hm)) as [e2' H2].
  { intros v. exists (p1 (cadd v w)). rewrite (proj_spec_tr w _ _ m dv d v HT Hd). apply Hp1. }
  destruct (move_local m d dv st2 sites2 f2 e2 e2' S2 C2 Hd H2) as (p2 & Hp2 & M2 & C2' & _).
  exists e2'. split; [assumption|]. split; [assumption|]. split; [assumption|].
  eapply moved_tr; eauto.
Qed.

(** independence of the order of the sites dictionary, as maps on all keys *)
Lemma Permutation_dget {V} (s1 s2 : dict coord V) : NoDup (dkeys s1) -> Permutation s1 s2 -> forall k, dget s1 k = dget s2 k.
Proof.
  intros ND HP k. assert (ND2 : NoDup (dkeys s2)) by (eapply Permutation_NoDup; [apply Permutation_map; eassumption|assumption]).
  destruct (dget s1 k) as [v|] eqn:E.
  - symmetry. apply In_dget; [assumption|]. eapply Permutation_in; [eassumption|]. apply dget_In; assumption.
  - symmetry. apply dget_None. apply dget_None in E. intros I. apply E.
    eapply Permutation_in; [apply Permutation_map, Permutation_sym; eassumption|assumption].
Qed.

Definition same_map {K V} `{EqDec K} (d1 d2 : dict K V) : Prop := forall k, dget d1 k = dget d2 k.

Lemma move_order m dv st1 st2 sites1 sites2 f e1 e2 e1' :
  is_state X st1 sites1 f -> complete X sites1 e1 ->
  i_sites st2 = Some sites2 -> (forall v, i_v2s st2 v = i_v2s st1 v) -> Permutation sites1 sites2 ->
  same_map (eC e1) (eC e2) -> same_map (eT e1) (eT e2) ->
  move m dv st1 e1 = Ok e1' ->
  exists e2', move m dv st2 e2 = Ok e2' /\ same_map (eC e1') (eC e2') /\ same_map (eT e1') (eT e2').
Proof.
  intros S1 C1 Es2 Ev2 HP HC HTm H.
  pose proof S1 as (Es1 & Ev1 & ND & Hin & Hfix & TC).
  assert (KP : forall k, In k (dkeys sites1) <-> In k (dkeys sites2)).
  { intros k. split; apply Permutation_in, Permutation_map; [assumption|apply Permutation_sym; assumption]. }
  assert (S2 : is_state X st2 sites2 f).
  { split; [assumption|]. split; [intros v; rewrite Ev2; apply Ev1|].
    split; [eapply Permutation_NoDup; [apply Permutation_map; eassumption|assumption]|].
    split; [intros v; apply KP, Hin|]. split; [intros k I; apply Hfix, KP, I|exact TC]. }
  assert (C2 : complete X sites2 e2).
  { split; intros k c I J.
    - apply dget_Some_key. rewrite <- HC. apply dget_Some_key. apply C1; [apply KP|]; assumption.
    - apply dget_Some_key. rewrite <- HTm. apply dget_Some_key. apply C1; [apply KP|]; assumption. }
  assert (HT : translated (0, 0) (fields_of X x0 f sites1 e1) (fields_of X x0 f sites2 e2)).
  { split; [|split]; intros; unfold fields_of; cbn [site_at corner_at edge_at]; rewrite cadd_0; unfold getd.
    - rewrite (Permutation_dget sites1 sites2 ND HP). reflexivity.
    - rewrite HC. reflexivity.
    - rewrite HTm. reflexivity. }
  destruct (move_covariant (0, 0) m dv st1 sites1 f e1 e1' st2 sites2 f e2 S1 C1 S2 C2 HT H) as (e2' & H2 & C1' & C2' & T').
  exists e2'. split; [assumption|].
  destruct (dir_of dv) as [d|] eqn:Hd.
  2: { rewrite (move_invalid_dir m dv st1 e1 Hd) in H by (rewrite Es1; congruence). discriminate. }
  destruct (move_local m d dv st1 sites1 f e1 e1' S1 C1 Hd H) as (p1 & _ & _ & _ & U1 & V1 & W1).
  destruct (move_local m d dv st2 sites2 f e2 e2' S2 C2 Hd H2) as (p2 & _ & _ & _ & U2 & V2 & W2).
  pose proof (dir_edge dv d Hd) as Hdv. destruct (edge_rot dv Hdv) as (R1 & R2 & R3 & R4 & R5 & R6).
  assert (GD : forall (d1 d2 : dict (coord * coord) X) k, In k (dkeys d1) -> In k (dkeys d2) -> getd X x0 d1 k = getd X x0 d2 k ->
     dget d1 k = dget d2 k).
  { intros d1 d2 k I J. apply dget_Some_key in I as [a Ea]. apply dget_Some_key in J as [b Eb]. unfold getd.
    rewrite Ea, Eb. congruence. }
  destruct T' as (_ & T2 & T3).
  split; intros [k c].
  - destruct (in_dec eq_dec k (dkeys sites1)) as [I|I].
    + destruct (in_dec eq_dec c corner_dirs) as [J|J].
      * apply GD; [apply C1'; assumption|apply C2'; [apply KP|]; assumption|].
        specialize (T2 k c J). unfold fields_of in T2; cbn in T2. rewrite cadd_0, (Hfix k I) in T2. auto.
      * rewrite V1, V2 by (intros ->; apply J; assumption). apply HC.
    + destruct (U1 k c I) as [-> _]. destruct (U2 k c) as [-> _]; [rewrite <- KP; assumption|]. apply HC.
  - destruct (in_dec eq_dec k (dkeys sites1)) as [I|I].
    + destruct (in_dec eq_dec c edge_dirs) as [J|J].
      * apply GD; [apply C1'; assumption|apply C2'; [apply KP|]; assumption|].
        specialize (T3 k c J). unfold fields_of in T3; cbn in T3. rewrite cadd_0, (Hfix k I) in T3. auto.
      * rewrite W1, W2 by (intros ->; apply J; assumption). apply HTm.
    + destruct (U1 k c I) as [_ ->]. destruct (U2 k c) as [_ ->]; [rewrite <- KP; assumption|]. apply HTm.
Qed.

(** ** schedules *)
Definition schedule (lX lY : Z) (dirs : list coord) : list coord :=
  flat_map (fun d => repeat d (Z.to_nat (if snd d =? 0 then lX else lY))) dirs.

Lemma foldM_const {A S} (g : S -> res S) (l : list A) s (h : S -> A -> res S) (H : forall s a, h s a = g s) :
  forall {B} (l' : list B) (h' : S -> B -> res S), (forall s b, h' s b = g s) -> length l = length l' ->
  foldM h l s = foldM h' l' s.
Proof. intros B l'. revert l s. induction l' as [|b l' IH]; intros [|a l] s h' H' L; try discriminate; [reflexivity|].
  cbn. rewrite H, H'. destruct (g s); cbn; [|reflexivity]. apply IH; auto. Qed.

Lemma iter_schedule m dirs st e : (forall d, In d dirs -> In d edge_dirs) ->
  ctmrg_iter X Pj proj44 proj42 fC1 fC2 fT normalize m dirs st e =
  foldM (fun e d => move m d st e) (schedule (i_lX st) (i_lY st) dirs) e.
Proof.
  revert e. induction dirs as [|d dirs IH]; intros e HD; [reflexivity|].
  unfold ctmrg_iter in *. cbn [foldM schedule flat_map]. fold (schedule (i_lX st) (i_lY st) dirs).
  rewrite foldM_app.
  cbv zeta.
  match goal with |- context [zrange (if ?b then _ else _)] => replace b with (snd d =? 0)
    by (destruct (HD d (or_introl eq_refl)) as [<-|[<-|[<-|[<-|[]]]]]; reflexivity) end.
  set (n := if snd d =? 0 then i_lX st else i_lY st).
  assert (R : forall n e, foldM (fun e d => move m d st e) (repeat d n) e = foldM (fun e (_ : Z) => move m d st e) (map Z.of_nat (seq 0 n)) e).
  { intros k. generalize 0%nat. induction k as [|k IHk]; intros s e1; [reflexivity|]. cbn [repeat foldM seq map].
    destruct (move m d st e1); cbn; [|reflexivity]. apply IHk. }
  rewrite R. unfold zrange. destruct (foldM _ _ e); cbn; [|reflexivity].
  apply IH. intros; apply HD; right; assumption.
Qed.

(** any sequence of moves: never an error other than from the decompositions, complete
    environments stay complete *)
Lemma moves_total m dirs st sites f e : is_state X st sites f -> complete X sites e -> m <> Mother ->
  (forall d, In d dirs -> In d edge_dirs) ->
  (forall d l, succeeds (proj44 d l)) -> (forall d l, succeeds (proj42 d l)) ->
  exists e', foldM (fun e d => move m d st e) dirs e = Ok e' /\ complete X sites e'.
Proof.
  intros HS HC Hm HD P1 P2. revert e HC. induction dirs as [|dv dirs IH]; intros e HC.
  - exists e. auto.
  - cbn [foldM].
    assert (exists d, dir_of dv = Some d) as [d Hd].
    { destruct (HD dv (or_introl eq_refl)) as [<-|[<-|[<-|[<-|[]]]]]; vm_compute; eauto. }
    destruct (proj2 (move_succeeds m d dv st sites f e HS HC Hd Hm)) as [e1 H1].
    { intros v. unfold proj_spec. destruct m; [apply P1|apply P2|congruence]. }
    rewrite H1. cbn. apply IH; [intros; apply HD; right; assumption|].
    destruct (move_local m d dv st sites f e e1 HS HC Hd H1) as (_ & _ & _ & C & _). exact C.
Qed.
End Moves.

(** ** the driver loop *)
Section Run.
Variables E H : Type.
Variables iter_warm iter : Z -> E -> res E.
Notation check_t := (option (E -> option H -> res (bool * H))).

(** a run of [n] iterations from (e,h) numbered from [i0] *)
Record run_of (check : check_t) (i0 n : nat) (e : E) (h : option H) (e' : E) (h' : option H) (conv : bool)
  (es : nat -> E) (hs : nat -> option H) : Prop := {
  r_start : es 0%nat = e /\ hs 0%nat = h;
  r_end : es n = e' /\ hs n = h';
  r_step : forall i, (i < n)%nat -> iter (Z.of_nat (i0 + i)) (es i) = Ok (es (S i));
  r_check : forall i, (i < n)%nat ->
     match check with
     | None => hs (S i) = hs i
     | Some f => exists b h1, f (es (S i)) (hs i) = Ok (b, h1) /\ hs (S i) = Some h1 /\
                              (b = true <-> (S i = n /\ conv = true))
     end;
  r_conv : conv = true -> check <> None /\ n <> 0%nat
}.

Lemma main_loop_spec check k : forall i0 e h done e' h' n conv,
  main_loop E H iter check (map Z.of_nat (seq i0 k)) e h done = Ok (e', h', n, conv) ->
  exists es hs, (done <= n)%nat /\ (n - done <= k)%nat /\ run_of check i0 (n - done) e h e' h' conv es hs /\
     (conv = false -> (n - done)%nat = k).
Proof.
  induction k as [|k IH]; intros i0 e h done e' h' n conv HL; cbn [seq map main_loop] in HL.
  - injection HL as <- <- <- <-. exists (fun _ => e), (fun _ => h).
    rewrite Nat.sub_diag. repeat split; auto; try lia; try discriminate.
  - apply bind_inv in HL as (e1 & E1 & HL).
    destruct check as [f|].
    + apply bind_inv in HL as ([b h1] & E2 & HL). destruct b.
      * injection HL as <- <- <- <-.
        exists (fun i => match i with 0%nat => e | _ => e1 end), (fun i => match i with 0%nat => h | _ => Some h1 end).
        replace (S done - done)%nat with 1%nat by lia.
        split; [lia|]. split; [lia|]. split; [|discriminate].
        split; try (split; reflexivity).
        -- intros i Hi. assert (i = 0%nat) by lia; subst. rewrite Nat.add_0_r. exact E1.
        -- intros i Hi. assert (i = 0%nat) by lia; subst. exists true, h1. repeat split; auto.
        -- intros _. split; [discriminate|lia].
      * apply IH in HL as (es & hs & L1 & L2 & R & C).
        exists (fun i => match i with 0%nat => e | S j => es j end), (fun i => match i with 0%nat => h | S j => hs j end).
        replace (n - done)%nat with (S (n - S done)) by lia.
        destruct R as [Rs Re Rst Rc Rcv].
        split; [lia|]. split; [lia|]. split.
        -- split; [split; reflexivity| split; apply Re | | |].
           ++ intros [|i] Hi; [rewrite Nat.add_0_r; destruct Rs as [-> _]; exact E1|].
              replace (i0 + S i)%nat with (S i0 + i)%nat by lia. apply Rst. lia.
           ++ intros [|i] Hi.
              ** exists false, h1. destruct Rs as [-> ->]. split; [assumption|]. split; [reflexivity|]. split; [discriminate|].
                 intros [Hn Hc]. destruct (Rcv Hc) as [_ Hz]. lia.
              ** destruct (Rc i) as (b & h2 & A1 & A2 & A3); [lia|]. exists b, h2. split; [exact A1|]. split; [exact A2|].
                 rewrite A3. split; intros [? ?]; split; auto; lia.
           ++ intros Hc. split; [discriminate|lia].
        -- intros Hc. rewrite <- (C Hc). reflexivity.
    + apply IH in HL as (es & hs & L1 & L2 & R & C).
      exists (fun i => match i with 0%nat => e | S j => es j end), (fun i => match i with 0%nat => h | S j => hs j end).
      replace (n - done)%nat with (S (n - S done)) by lia.
      destruct R as [Rs Re Rst Rc Rcv].
      split; [lia|]. split; [lia|]. split.
      * split; [split; reflexivity| split; apply Re | | |].
        -- intros [|i] Hi; [rewrite Nat.add_0_r; destruct Rs as [-> _]; exact E1|].
           replace (i0 + S i)%nat with (S i0 + i)%nat by lia. apply Rst. lia.
        -- intros [|i] Hi; [destruct Rs as [_ ->]; reflexivity|]. apply Rc. lia.
        -- intros Hc. destruct (Rcv Hc) as [HN _]. congruence.
      * intros Hc. rewrite <- (C Hc). reflexivity.
Qed.

Lemma ctmrg_run_spec warmup chi maxD max_iter check e e' h' n conv :
  ctmrg_run E H iter_warm iter warmup chi maxD max_iter check e = Ok (e', h', n, conv) ->
  exists w e0 es hs,
    warmup_count warmup chi maxD = Ok w /\
    foldM (fun e i => iter_warm i e) (zrange w) e = Ok e0 /\
    run_of check 0 n e0 None e' h' conv es hs /\
    (n <= Z.to_nat max_iter)%nat /\ (conv = false -> n = Z.to_nat max_iter).
Proof.
  unfold ctmrg_run. intros HR. apply bind_inv in HR as (w & Ew & HR). apply bind_inv in HR as (e0 & E0 & HR).
  destruct ((0 <=? warmup) && (w <=? 0)) in HR; [discriminate|].
  unfold zrange in HR. apply main_loop_spec in HR as (es & hs & _ & L2 & R & C).
  rewrite Nat.sub_0_r in *. exists w, e0, es, hs. auto 10.
Qed.

Lemma ceil_div_spec a b : 0 < b -> b * (ceil_div a b - 1) < a <= b * ceil_div a b.
Proof. intros Hb. unfold ceil_div. pose proof (Z.mod_pos_bound (- a) b Hb).
  pose proof (Z.div_mod (- a) b ltac:(lia)). lia. Qed.
End Run.

Lemma warmup_count_spec warmup chi maxD w : 0 <= warmup -> 0 < maxD ->
  warmup_count warmup chi maxD = Ok w ->
  warmup <= w /\ chi <= maxD ^ 2 * w /\ (w = warmup \/ maxD ^ 2 * (w - 1) < chi).
Proof.
  unfold warmup_count. intros H0 H1. destruct (Z.ltb_spec warmup 0); [lia|].
  destruct (Z.eqb_spec (maxD ^ 2) 0); [discriminate|]. intros E.
  assert (w = Z.max warmup (ceil_div chi (maxD ^ 2))) as -> by congruence.
  assert (0 < maxD ^ 2) by nia. pose proof (ceil_div_spec chi (maxD ^ 2) ltac:(lia)).
  destruct (Z.max_spec warmup (ceil_div chi (maxD ^ 2))) as [[? ->]|[? ->]]; repeat split; try lia; nia.
Qed.

Lemma foldM_total {A S} (g : S -> A -> res S) : (forall s a, succeeds (g s a)) -> forall l s, succeeds (foldM g l s).
Proof.
  intros HG l. induction l as [|a l IH]; intros s; [exists s; reflexivity|].
  cbn. destruct (HG s a) as [s' ->]. apply IH.
Qed.
Lemma main_loop_total E H (iter : Z -> E -> res E) (check : option (E -> option H -> res (bool * H))) :
  (forall i e, succeeds (iter i e)) -> (forall f e h, check = Some f -> succeeds (f e h)) ->
  forall l e h n, succeeds (main_loop E H iter check l e h n).
Proof.
  intros HI HC l. induction l as [|i l IH]; intros e h n; cbn; [eexists; reflexivity|].
  destruct (HI i e) as [e1 ->]. cbn. destruct check as [f|]; [|apply IH].
  destruct (HC f e1 h eq_refl) as [[b h1] ->]. cbn. destruct b; [eexists; reflexivity|]. apply IH.
Qed.
Lemma ctmrg_run_total E H iter_warm iter warmup chi maxD max_iter check e : 0 < chi -> 0 < maxD ->
  (forall i e, succeeds (iter_warm i e)) -> (forall i e, succeeds (iter i e)) ->
  (forall f e h, check = Some f -> succeeds (f e h)) ->
  succeeds (ctmrg_run E H iter_warm iter warmup chi maxD max_iter check e).
Proof.
  intros Hc HD HW HI HC. unfold ctmrg_run.
  destruct (warmup_count warmup chi maxD) as [w|er] eqn:Ew.
  - cbn. destruct (foldM_total (fun e i => iter_warm i e) (fun s a => HW a s) (zrange w) e) as [e1 ->]. cbn.
    destruct (Z.leb_spec 0 warmup); cbn; [|apply main_loop_total; assumption].
    destruct (warmup_count_spec warmup chi maxD w ltac:(assumption) HD Ew) as (A & B & C).
    destruct (Z.leb_spec w 0); [exfalso; nia|]. apply main_loop_total; assumption.
  - exfalso. unfold warmup_count in Ew. destruct (warmup <? 0); [discriminate|].
    destruct (Z.eqb_spec (maxD ^ 2) 0); [nia|discriminate].
Qed.
