From Verif Require Import Base BaseLemmas Text Tensor TensorLemmas TensorIO TensorIOProofs Lattice LatticeProofs StateIO StateIOSpec StateIOProofs StateIOProofs2
  Extend ExtendSpec ExtendProofs C4v D2Kag D2KagSpec D2KagProofs.
Open Scope list_scope.
Open Scope nat_scope.
Open Scope res_scope.

Section Files.
Context {R : Type} (zero : R) (add : R -> R -> R) (fmt : R -> string) (parse : string -> option R)
  (fmtc : R * R -> string) (parsec : string -> option (R * R)) (normalized : ten R -> ten R).
Notation write := (write_ipeps fmt fmtc normalized).
Notation read := (read_ipeps zero add parse parsec).

Lemma flip_r_ok (A : ten R) : onsite A -> exists B, flip_r zero A = Ok B /\ onsite B /\ ten_cplx B = ten_cplx A /\ forall cd, promote zero cd A = A -> promote zero cd B = B.
Proof. intros [W L]. destruct A as [A|A].
  - destruct (flip_ok zero A (conj W L)) as (B & E & M). exists (TReal B). unfold flip_r, ten_permute. change (tpermute zero A [0; 3; 2; 1; 4]) with (flip_t zero A). rewrite E.
    split; [reflexivity|]. split; [exact (mirrored_rank5 _ _ M)|]. split; [reflexivity|]. intros [|]; cbn; [discriminate|auto].
  - destruct (flip_ok (zero, zero) A (conj W L)) as (B & E & M). exists (TCplx B). unfold flip_r, ten_permute. change (tpermute (zero, zero) A [0; 3; 2; 1; 4]) with (flip_t (zero, zero) A). rewrite E.
    split; [reflexivity|]. split; [exact (mirrored_rank5 _ _ M)|]. split; [reflexivity|]. intros [|]; cbn; auto. Qed.

Lemma uni2 (A B : ten R) : ten_cplx B = ten_cplx A -> uniform ten_cplx ten_device [((0, 0)%Z, A); ((0, 1)%Z, B)] = true.
Proof. intros E. unfold uniform. cbn. rewrite E. now destruct (ten_cplx A). Qed.

Lemma write_pattern f aux nrm st js : write f aux nrm st = Ok js -> (0 < i_lY st)%Z -> exists r rows, js_pattern js = Some (r :: rows).
Proof. unfold write_ipeps. intros E HY. bind_inv E. bind_inv E. bind_inv E. inv E. cbn [js_pattern]. destruct a1 as [|r rows]; [|eauto].
  exfalso. apply mapM_ok in Ha1. inversion Ha1 as [HE|]. unfold zrange in HE. destruct (Z.to_nat (i_lY st)) eqn:N; [lia|]. cbn in HE. discriminate HE. Qed.

Lemma pattern_again (sites : dict coord (ten R)) r rows lX lY lX' lY' st : ipeps_init ten_cplx ten_device (Some sites) None (Some (PatRows (r :: rows))) lX lY = Ok st ->
  exists s, i_sites st = Some s /\ ipeps_init (L := string) ten_cplx ten_device (Some s) None (Some (PatRows (r :: rows))) lX' lY' = Ok st.
Proof. intros E. destruct sites as [|ct sites].
  - exfalso. unfold ipeps_init in E. cbn [sites_truthy bind init_size pat_truthy pattern_size] in E. bind_inv E. destruct a. discriminate E.
  - exists (ct :: sites). split; [|exact E]. refine (proj1 (init_sites (L := string) ten_cplx ten_device _ _ _ _ _ _ _ _ E)). reflexivity. Qed.

Lemma kag_read_ok cd aux js st r rows : read cd None aux js = Ok st -> js_pattern js = Some (r :: rows) ->
  kag_read zero add parse parsec cd None aux js = Ok (mkKag string st (Some (PatRows (r :: rows)))).
Proof. intros E EP. unfold kag_read. rewrite E. cbn [bind]. unfold read_ipeps in E. rewrite EP in E. bind_inv E. destruct a as [sites X]. bind_inv E. bind_inv E.
  destruct (pattern_again _ _ _ _ _ (Some (i_lX st)) (Some (i_lY st)) _ E) as (s & Hs & E'). unfold dict_sites. rewrite Hs. cbn [bind]. rewrite EP. cbn [option_map pat_truthy bind].
  unfold kag_init. rewrite E'. reflexivity. Qed.
Lemma kag_read_map cd f aux js s : kag_read zero add parse parsec cd (Some f) aux js <> Ok s.
Proof. unfold kag_read. intros E. bind_inv E. bind_inv E. discriminate E. Qed.
Lemma kag_read_nopattern cd v2s aux js s : js_pattern js = None -> kag_read zero add parse parsec cd v2s aux js <> Ok s.
Proof. unfold kag_read. intros HP E. bind_inv E. bind_inv E. rewrite HP in E. destruct v2s; discriminate E. Qed.

Lemma d2_read_other cd aux js st sites : read cd None aux js = Ok st -> i_sites st = Some sites -> (length sites <> 2 \/ i_lX st <> 1%Z \/ i_lY st <> 2%Z) ->
  d2_read zero add parse parsec cd aux js = Err AssertionError.
Proof. clear fmt fmtc. intros E Hs HO. unfold d2_read. rewrite E. cbn [bind]. unfold dict_sites. rewrite Hs. cbn [bind].
  replace (Nat.eqb (length sites) 2 && Z.eqb (i_lX st) 1 && Z.eqb (i_lY st) 2) with false; [reflexivity|]. symmetry. rewrite !andb_false_iff, Nat.eqb_neq, !Z.eqb_neq. tauto. Qed.

(** physical dimension *)
Variable root : nat -> nat.
Lemma phys_sound {L} (s : kag (R := R) (L := L)) d sites : i_sites (k_st s) = Some sites -> kag_get_physical_dim root s = Ok d ->
  forall c t, In (c, t) sites -> hd 0 (ten_dims t) = d * d * d.
Proof. intros Hs E. unfold kag_get_physical_dim, dict_sites in E. rewrite Hs in E. cbn [bind] in E. bind_inv E. rename a into ds. assert (ED : ds = [d]) by (destruct ds as [|x [|]]; inv E; reflexivity). subst ds. clear E.
  enough (G : forall (l : dict coord (ten R)) ds0 ds, foldM (fun ds ct =>
    n <- match tsize (snd ct) with n :: _ => Ok n | [] => Err IndexError end ;;
    _ <- py_assert (Nat.eqb (root n * root n * root n) n) ;;
    Ok (if existsb (Nat.eqb (root n)) ds then ds else ds ++ [root n])) l ds0 = Ok ds ->
    (forall x, In x ds0 -> In x ds) /\ forall c t, In (c, t) l -> exists x, In x ds /\ hd 0 (ten_dims t) = x * x * x).
  { intros c t Hin. destruct (proj2 (G _ _ _ Ha) c t Hin) as (x & [<-|[]] & Hx). exact Hx. }
  induction l as [|ct l IH]; intros ds0 ds E; cbn [foldM] in E.
  - inv E. split; [auto|]. intros c t [].
  - bind_inv E. bind_inv Ha0. bind_inv Ha0. inv Ha0. unfold py_assert in Ha2. destruct (Nat.eqb _ a0) eqn:EQ; [|discriminate]. apply Nat.eqb_eq in EQ.
    destruct (IH _ _ E) as [I1 I2]. split.
    + intros x Hx. apply I1. destruct (existsb _ _); [exact Hx|]. apply in_or_app. now left.
    + intros c t [Hc|Hc]; [|eauto]. subst ct. cbn [snd] in Ha1. exists (root a0). split.
      * apply I1. destruct (existsb (Nat.eqb (root a0)) ds0) eqn:EX; [|apply in_or_app; right; now left]. apply existsb_exists in EX as (x & Hx & Ex). apply Nat.eqb_eq in Ex. now rewrite Ex.
      * rewrite EQ. change (ten_dims t) with (tsize t). destruct (tsize t); inv Ha1. reflexivity. Qed.
Lemma phys_complete {L} (s : kag (R := R) (L := L)) d sites : (forall n, root (n * n * n) = n) -> i_sites (k_st s) = Some sites -> sites <> [] ->
  (forall c t, In (c, t) sites -> exists l, ten_dims t = d * d * d :: l) -> kag_get_physical_dim root s = Ok d.
Proof. intros HR Hs Hne Hd. unfold kag_get_physical_dim, dict_sites. rewrite Hs. cbn [bind]. set (step := fun (ds : list nat) ct => _).
  assert (G : forall l : dict coord (ten R), (forall c t, In (c, t) l -> exists q, ten_dims t = d * d * d :: q) -> foldM step l [d] = Ok [d]).
  { induction l as [|[c t] l IH]; intros Hl; [reflexivity|]. cbn [foldM]. destruct (Hl c t (or_introl eq_refl)) as [q Hq]. change (tsize t = d * d * d :: q) in Hq. unfold step at 1. cbn [snd]. rewrite Hq. cbn [bind].
    rewrite HR, Nat.eqb_refl. cbn [py_assert bind existsb]. rewrite Nat.eqb_refl. cbn [orb bind]. apply IH. intros; eapply Hl; right; eassumption. }
  destruct sites as [|[c t] l]; [congruence|]. cbn [foldM]. destruct (Hd c t (or_introl eq_refl)) as [q Hq]. change (tsize t = d * d * d :: q) in Hq. unfold step at 1. cbn [snd]. rewrite Hq. cbn [bind].
  rewrite HR, Nat.eqb_refl. cbn [py_assert bind existsb app]. rewrite G by (intros; eapply Hd; right; eassumption). reflexivity. Qed.

(** enlarging *)
Lemma ten_extend_ok D (t : ten R) : onsite t -> ten_fits D t -> exists t', ten_extend zero D t = Ok t' /\ ten_padded zero D t t' /\ ten_cplx t' = ten_cplx t.
Proof. assert (P : forall K (z : K) (a : tensor K), rank5 a -> aux_le D a -> exists b, extend_site z (fun x => x) Cplx D a = Ok b /\ padded z a (new_dims D a) b).
  { intros K z a Ha HD. destruct (extend_site_ok' z (fun x => x) Cplx D a Ha HD) as (b & E & W & DD & G). exists b. split; [exact E|]. split; [exact W|]. split; [exact DD|].
    intros ix Hix. rewrite (G ix Hix), tget_tmap. now destruct (tget a ix). }
  intros Ho Hf. destruct t as [a|a].
  - destruct (P R zero a Ho Hf) as (b & E & Hb). exists (TReal b). unfold ten_extend. rewrite E. auto.
  - destruct (P _ (zero, zero) a Ho Hf) as (b & E & Hb). exists (TCplx b). unfold ten_extend. rewrite E. auto. Qed.
Lemma ten_extend_err D (t : ten R) : ~ ten_fits D t -> ten_extend zero D t = Err ValueError.
Proof. intros Hf. destruct t as [a|a]; unfold ten_extend; (rewrite extend_site_small; [reflexivity|]); destruct (aux_le_dec D a) as [|X]; auto; contradiction. Qed.

Lemma zmin_is l m : In m l -> (forall z, In z l -> (m <= z)%Z) -> zmin_list l = Ok m.
Proof. intros Hi Hm. destruct (zmin_list l) as [m'|e] eqn:E; [|destruct l; [destruct Hi|discriminate E]]. apply zmin_list_spec in E as [I B]. f_equal. specialize (B _ Hi). specialize (Hm _ I). lia. Qed.
Lemma zmax_is l m : In m l -> (forall z, In z l -> (z <= m)%Z) -> zmax_list l = Ok m.
Proof. intros Hi Hm. destruct (zmax_list l) as [m'|e] eqn:E; [|destruct l; [destruct Hi|discriminate E]]. apply zmax_list_spec in E as [I B]. f_equal. specialize (B _ Hi). specialize (Hm _ I). lia. Qed.
Lemma span_size (sites : dict coord (ten R)) lX lY : sites <> [] -> spans (dkeys sites) lX lY -> init_size (L := string) (Some sites) None None None = Ok (lX, lY).
Proof. intros Hne (Hc & X0 & X1 & Y0 & Y1). unfold init_size. cbn [pat_truthy]. destruct sites as [|ct sites]; [congruence|]. cbn [sites_truthy]. set (S := ct :: sites) in *.
  rewrite (zmin_is _ 0%Z X0), (zmax_is _ _ X1). cbn [bind]. rewrite (zmin_is _ 0%Z Y0), (zmax_is _ _ Y1). cbn [bind]. f_equal. f_equal; lia.
  all: intros z Hz; apply in_map_iff in Hz as (k & <- & Hk); specialize (Hc k Hk); lia. Qed.

Lemma init_size_any {L} (sites : dict coord (ten R)) : init_size (L := L) (Some sites) None None None = init_size (L := string) (Some sites) None None None.
Proof. reflexivity. Qed.

Lemma kag_extend_ok {L} `{EqDec L} (s : kag (R := R) (L := L)) sites D : i_sites (k_st s) = Some sites -> sites <> [] -> uniform ten_cplx ten_device sites = true ->
  (forall c t, In (c, t) sites -> onsite t /\ ten_fits D t) -> spans (dkeys sites) (i_lX (k_st s)) (i_lY (k_st s)) ->
  exists s' sites', kag_extend zero s D = Ok s' /\ i_sites (k_st s') = Some sites' /\ i_v2s (k_st s') = i_v2s (k_st s) /\
    i_lX (k_st s') = i_lX (k_st s) /\ i_lY (k_st s') = i_lY (k_st s) /\
    Forall2 (fun a b => fst a = fst b /\ ten_padded zero D (snd a) (snd b)) sites sites'.
Proof. intros Hs Hne HU Ho Hsp. unfold kag_extend, dict_sites. rewrite Hs. cbn [bind].
  assert (G : forall l : dict coord (ten R), (forall c t, In (c, t) l -> onsite t /\ ten_fits D t) -> exists l', mapM (fun ct => t <- ten_extend zero D (snd ct) ;; Ok (fst ct, t)) l = Ok l' /\
    Forall2 (fun a b => fst a = fst b /\ ten_padded zero D (snd a) (snd b)) l l' /\ dkeys l' = dkeys l /\ map ten_cplx (dvals l') = map ten_cplx (dvals l) /\ map ten_device (dvals l') = map ten_device (dvals l)).
  { induction l as [|[c t] l IH]; intros Hl; [exists []; repeat split; constructor|]. destruct IH as (l' & E & F & K1 & C1 & V1); [intros; eapply Hl; right; eassumption|].
    destruct (Hl c t (or_introl eq_refl)) as [O1 F1]. destruct (ten_extend_ok D t O1 F1) as (t' & Et & Pt & Ct). exists ((c, t') :: l'). cbn [mapM fst snd]. rewrite Et. cbn [bind]. rewrite E. cbn [bind].
    split; [reflexivity|]. split; [constructor; [now split|exact F]|]. unfold dkeys, dvals in *. cbn. rewrite K1, C1, V1, Ct. auto. }
  destruct (G sites Ho) as (sites' & E & F & K1 & C1 & V1). rewrite E. cbn [bind]. assert (Hne' : sites' <> []) by (intros ->; inversion F; subst; congruence).
  assert (HU' : uniform ten_cplx ten_device sites' = true) by (unfold uniform in *; now rewrite C1, V1).
  unfold kag_init, ipeps_init. destruct sites' as [|x0 xs] eqn:EX; [congruence|]. cbn [sites_truthy]. rewrite HU'. cbn [py_assert bind]. rewrite <- EX in *. rewrite init_size_any.
  rewrite (span_size sites' _ _ Hne') by (rewrite K1; exact Hsp). cbn [bind]. eexists. exists sites'. split; [reflexivity|]. cbn. auto. Qed.

Lemma kag_extend_err {L} `{EqDec L} (s : kag (R := R) (L := L)) sites D c t : i_sites (k_st s) = Some sites -> (forall c t, In (c, t) sites -> onsite t) -> In (c, t) sites -> ~ ten_fits D t ->
  kag_extend zero s D = Err ValueError.
Proof. intros Hs Ho Hin Hf. unfold kag_extend, dict_sites. rewrite Hs. cbn [bind].
  enough (E : mapM (fun ct => t <- ten_extend zero D (snd ct) ;; Ok (fst ct, t)) sites = Err ValueError) by now rewrite E.
  clear Hs. induction sites as [|[c0 t0] l IH]; [destruct Hin|]. cbn [mapM snd fst].
  destruct (Forall_dec (fun d => d <= D) (fun d => le_dec d D) (tl (ten_dims t0))) as [F0|F0].
  - destruct (ten_extend_ok D t0 (Ho _ _ (or_introl eq_refl)) F0) as (t' & -> & _). cbn [bind]. destruct Hin as [Hin|Hin]; [inv Hin; contradiction|].
    rewrite IH; [reflexivity| |exact Hin]. intros; eapply Ho; right; eassumption.
  - rewrite ten_extend_err by exact F0. reflexivity. Qed.

Section RT.
Hypothesis P1 : forall x, parse (fmt x) = Some x.
Hypothesis P2 : forall x, token (fmt x) = true.
Hypothesis P3 : forall z, parsec (fmtc z) = Some z.
Hypothesis P4 : forall x, add zero x = x.

Lemma d2_io f cd A : f <> Fother -> onsite A -> promote zero cd A = A -> exists s js, d2_newr zero (Some A) = Ok s /\
  (forall s0, parent s0 = Some A -> d2_write zero fmt fmtc normalized f aux_default false s0 = Ok js) /\ d2_read zero add parse parsec cd aux_default js = Ok s.
Proof. intros Hf HA HP. destruct (flip_r_ok A HA) as (B & EB & HB & CB & PB). pose proof (uni2 A B CB) as U. pose proof (d2_init_eq ten_cplx ten_device (flip_r zero) A B EB U) as E.
  fold (d2_newr zero) in E. set (st := mk_ipeps _ _ _ _) in E. exists (mkD2 (Some A) st).
  destruct (state_roundtrip zero add fmt parse fmtc parsec normalized P1 P2 P3 P4 f cd st [((0, 0)%Z, A); ((0, 1)%Z, B)] Hf) as (js & st' & W & RD & S1 & S2 & S3 & S4).
  { apply (d2_regular ten_cplx ten_device (flip_r zero) A B U). }
  { intros c t [Hc|[Hc|[]]]; inv Hc; auto. }
  { exact U. }
  exists js. split; [exact E|]. unfold d2_write, d2_get_checkpoint, d2_read. split; [intros s0 Es0; rewrite Es0; cbn [bind]; rewrite E; exact W|]. rewrite RD. cbn [bind]. unfold dict_sites. rewrite S1, S2, S3. cbn [bind length py_assert andb Nat.eqb].
  cbn [i_lX i_lY st Z.eqb Pos.eqb andb py_assert bind]. unfold ipeps_site. rewrite S1, S4. cbn [i_v2s st]. rewrite pbc_ok by lia. cbn. exact E. Qed.

Lemma kag_io f cd {L} (s : kag (R := R) (L := L)) sites : f <> Fother -> regular (k_st s) sites -> (forall c t, In (c, t) sites -> onsite t /\ promote zero cd t = t) ->
  uniform ten_cplx ten_device sites = true ->
  exists js s', kag_write fmt fmtc normalized f aux_default false s = Ok js /\ kag_read zero add parse parsec cd None aux_default js = Ok s' /\
  i_sites (k_st s') = Some sites /\ i_lX (k_st s') = i_lX (k_st s) /\ i_lY (k_st s') = i_lY (k_st s) /\ (forall v, i_v2s (k_st s') v = i_v2s (k_st s) v) /\ k_pat s' = option_map PatRows (js_pattern js).
Proof. intros Hf HR Ho HU. destruct (state_roundtrip zero add fmt parse fmtc parsec normalized P1 P2 P3 P4 f cd (k_st s) sites Hf HR Ho HU) as (js & st' & W & RD & S1 & S2 & S3 & S4).
  destruct (write_pattern _ _ _ _ _ W (proj2 (reg_pos _ _ HR))) as (r & rows & EP). exists js. eexists. split; [exact W|]. split; [apply (kag_read_ok _ _ _ _ _ _ RD EP)|]. cbn [k_st k_pat]. rewrite EP. auto 6. Qed.
End RT.
End Files.
