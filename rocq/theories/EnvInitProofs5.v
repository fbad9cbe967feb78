(** Starting environments of the C4v variant. *)
From Verif Require Import Base BaseLemmas Lattice Tensor TensorLemmas Net NetSpec NetProofs NetProofs2 NetProofs3 Extend Corners CornersSpec CornersProofs RdmProofs C4v CtmC4v EnvInit EnvInitSpec EnvInitProofs EnvInitProofs2 EnvInitProofs3.
From Verif Require Ctm ExtendSpec ExtendProofs C4vProofs.
From Coq Require Import Ring.
Open Scope list_scope.
Open Scope nat_scope.
Open Scope res_scope.

Section P.
Context {K : Type} (z o : K) (add mul div sub : K -> K -> K) (cj : K -> K) (is0 : K -> bool).
Notation ten := (tensor K).
Variable amax : ten -> K.
Variable cv : K -> K.
Hypothesis Hcv : forall x, cv x = x.
Hypothesis SR : semi_ring_theory z o add mul eq.
Notation start := (is_start z o add mul div amax).
Notation isc D net out M := (is_contraction D z o add mul net out M).
Ltac sizes H5 := cbv [fused start_dims filter inward outward facing sides side nth fst snd negb eqb Z.eqb Pos.eqb cneg orb andb map ldim FF seq Z.opp];
  try match goal with |- context [eq_dec ?a ?b] => idtac end; cbn;
  pose proof (size_legs _ H5 0 ltac:(lia)) as HS0; pose proof (size_legs _ H5 1 ltac:(lia)) as HS1; pose proof (size_legs _ H5 2 ltac:(lia)) as HS2; pose proof (size_legs _ H5 3 ltac:(lia)) as HS3;
  cbn [Nat.add] in HS0, HS1, HS2, HS3; rewrite ?HS0, ?HS1, ?HS2, ?HS3; reflexivity.

Lemma c4v_obc_ok chi (A : ten) : site5 A -> nonzero z o add mul amax is0 Summed (-1, -1)%Z A (tmap cj A) -> nonzero z o add mul amax is0 Summed (-1, 0)%Z A (tmap cj A) ->
  exists C T, c4v_init_obc z o add mul div cj is0 amax cv chi A = Ok (C, T) /\
    start Summed chi (-1, -1)%Z A (tmap cj A) C /\ start Summed chi (-1, 0)%Z A (tmap cj A) T.
Proof. intros V N1 N2. unfold c4v_init_obc.
  destruct (start_step z o add mul div is0 amax cv Hcv chi (-1, -1)%Z _ _ A (conj cj A) Summed (obc_LU z o add mul SR A (conj cj A) V (twf_conj cj A (proj1 V)) eq_refl) N1
    [Bdry (sq (size A 3)); Bdry (sq (size A 4))] ltac:(sizes V) eq_refl ltac:(sizes V)) as (M & C & EM & En & Ec & Hs).
  rewrite <- bind_bind, EM. cbn [bind]. rewrite En. cbn [bind]. cbn [map lc_new lc_slice] in Ec. rewrite Ec. cbn [bind].
  destruct (start_step z o add mul div is0 amax cv Hcv chi (-1, 0)%Z _ _ A (conj cj A) Summed (obc_L z o add mul SR A (conj cj A) V (twf_conj cj A (proj1 V)) eq_refl) N2
    [Bdry (sq (size A 1)); Bdry (sq (size A 3)); Kept (sq (size A 4))] ltac:(sizes V) eq_refl ltac:(sizes V)) as (M' & T & EM' & En' & Ec' & Hs').
  rewrite <- bind_bind, EM'. cbn [bind]. rewrite En'. cbn [bind]. cbn [map lc_new lc_slice] in Ec'. rewrite Ec'. cbn [bind].
  exists C, T. split; [reflexivity|]. split; assumption. Qed.

Lemma start1_step chi d (m : res ten) (A : ten) : (exists M, m = Ok M /\ isc (bd1 A) (bare A) (legs1 (inward d)) M) -> nonzero1 z o add mul amax is0 d A ->
  forall ls, map (ldim (bd1 A)) (legs1 (inward d)) = map lc_dim ls -> map (lc_new chi) ls = start_dims chi d (inward d) (fun k => bd1 A (1 + k)) ->
  exists M t, m = Ok M /\ normalize div is0 amax M = Ok (unit_scale div amax M) /\
    copy_block z cv (tzeros z (map (lc_new chi) ls)) (unit_scale div amax M) (map (lc_slice chi) ls) = Ok t /\ is_start1 z o add mul div amax chi d A t.
Proof. intros (M & E & HM) HN ls E1 E2.
  assert (Hd : tdims M = map lc_dim ls) by (rewrite <- E1; exact (proj1 (proj2 HM))).
  destruct (copy_legs z cv Hcv (unit_scale div amax M) chi ls (twf_scale div amax M (proj1 HM)) Hd) as (t & Et & Pt).
  exists M, t. split; [exact E|]. split; [now apply normalize_ok, HN|]. split; [exact Et|]. exists M. split; [exact HM|]. rewrite <- E2. exact Pt. Qed.
Lemma c4v_obc_sl_ok chi (A : ten) : site4 A -> nonzero1 z o add mul amax is0 (-1, -1)%Z A -> nonzero1 z o add mul amax is0 (-1, 0)%Z A ->
  exists C T, c4v_init_obc_sl z o add mul div is0 amax cv chi A = Ok (C, T) /\
    is_start1 z o add mul div amax chi (-1, -1)%Z A C /\ is_start1 z o add mul div amax chi (-1, 0)%Z A T.
Proof. intros V N1 N2. unfold c4v_init_obc_sl, rank, py_assert. rewrite (proj2 V). cbn [Nat.eqb bind].
  assert (HS : size A 0 = bd1 A 1 /\ size A 2 = bd1 A 3 /\ size A 3 = bd1 A 4).
  { destruct V as [_ L]. destruct A as [dA ?]. cbn in L. do 5 (destruct dA as [|? dA]; try discriminate L). repeat split; reflexivity. }
  destruct HS as (-> & -> & ->).
  destruct (start1_step chi (-1, -1)%Z _ A (one_LU z o add mul SR A V) N1 [Bdry (bd1 A 3); Bdry (bd1 A 4)] eq_refl eq_refl) as (M & C & EM & En & Ec & Hs).
  rewrite EM. cbn [bind]. rewrite En. cbn [bind]. cbn [map lc_new lc_slice] in Ec. rewrite Ec. cbn [bind].
  destruct (start1_step chi (-1, 0)%Z _ A (one_L z o add mul SR A V) N2 [Bdry (bd1 A 1); Bdry (bd1 A 3); Kept (bd1 A 4)] eq_refl eq_refl) as (M' & T & EM' & En' & Ec' & Hs').
  rewrite EM'. cbn [bind]. rewrite En'. cbn [bind]. cbn [map lc_new lc_slice] in Ec'. rewrite Ec'. cbn [bind].
  exists C, T. split; [reflexivity|]. split; assumption. Qed.

(** ** closed boundaries *)
Variable eig : ten -> nat -> res (list K * ten).
Variable negligible : ten -> ten -> bool.
Lemma tdiag_diagonal (w : list K) : diagonal z w (tdiag z w).
Proof. unfold diagonal, tdiag. split; [apply twf_tbuild|]. split; [reflexivity|]. intros i j Hi Hj. rewrite tget_tbuild by (repeat constructor; assumption). reflexivity. Qed.
Lemma rotated_ok n (U M : ten) : twf U -> tdims U = [n; n] -> twf M -> tdims M = [n; n; n] ->
  exists N, einsum3 z o add mul "ai" "abs" "bj" "ijs" U M (conj cj U) = Ok N /\ isc (fun _ => n) (rotated U M cj) [V 1; V 4; V 3] N.
Proof. intros WU DU WM DM. assert (HF : fits (fun _ => n) (rotated U M cj)).
  { repeat constructor; cbn [fst snd]; try assumption; try apply twf_conj; try assumption; cbn; rewrite ?DU, ?DM; reflexivity. }
  generalize dependent (fun _ : nat => n). intros D HF. unfold rotated in *.
  change (tmap cj U) with (conj cj U) in *. generalize dependent (conj cj U). intros U' HF. expand_net HF. leaves SR HF. singleE SR; [unfold einsum3; cein SR|check|reflexivity]. Qed.

Lemma permute_swap2 (t : ten) n : tdims t = [n; n] -> exists p, permute z t [1; 0] = Ok p /\ tdims p = [n; n].
Proof. intros E. unfold permute, tpermute. rewrite E. cbn [length is_permb Nat.eqb forallb seq existsb andb orb nth map]. eexists. split; reflexivity. Qed.
Lemma permute_swap3 (t : ten) n m : tdims t = [n; n; m] -> exists p, permute z t [1; 0; 2] = Ok p /\ tdims p = [n; n; m].
Proof. intros E. unfold permute, tpermute. rewrite E. cbn [length is_permb Nat.eqb forallb seq existsb andb orb nth map]. eexists. split; reflexivity. Qed.
Lemma tbin_same f (t u : ten) d : tdims t = d -> tdims u = d -> exists v, tbin z f t u = Ok v.
Proof. intros E1 E2. unfold tbin. rewrite E1, E2, C4vProofs.bdims_same. eexists. reflexivity. Qed.
Notation c4v_pbc := (c4v_init_pbc z o add mul div sub cj is0 amax cv eig negligible).
Lemma c4v_pbc_ok chi (A : ten) n w U : site5 A -> equal_legs A n ->
  nonzero z o add mul amax is0 Traced (-1, -1)%Z A (tmap cj A) -> nonzero z o add mul amax is0 Traced (-1, 0)%Z A (tmap cj A) ->
  (forall M, isc (bd A) (layers Traced (inward (-1, -1)%Z) A (tmap cj A)) (fused (inward (-1, -1)%Z)) M -> eig (unit_scale div amax M) (n * n) = Ok (w, U)) ->
  length w = n * n -> twf U -> tdims U = [n * n; n * n] ->
  ((exists x y, negligible x y = false) /\ c4v_pbc chi A = Err AssertionError) \/
  exists C T M N, c4v_pbc chi A = Ok (C, T) /\ (exists d, diagonal z w d /\ ExtendSpec.padded z d [chi; chi] C) /\
    isc (bd A) (layers Traced (inward (-1, 0)%Z) A (tmap cj A)) (fused (inward (-1, 0)%Z)) M /\
    isc (fun _ => n * n) (rotated U (unit_scale div amax M) cj) [V 1; V 4; V 3] N /\ ExtendSpec.padded z N [chi; chi; n * n] T.
Proof. intros V HL N1 N2 HE LW WU DU. unfold c4v_init_pbc, EnvInit.c4v_pbc.
  assert (HS : forall k, k < 4 -> size A (S k) = n) by (intros k Hk; rewrite (size_bd A (S k) V ltac:(lia)); now apply HL).
  assert (HB : forall k, 0 < k < 9 -> bd A k = n).
  { intros k Hk. destruct (Nat.le_gt_cases k 4) as [Hl|Hl]; [replace k with (1 + (k - 1)) by lia; apply HL; lia|]. replace k with (5 + (k - 5)) by lia. rewrite bd_pair by lia. apply HL. lia. }
  assert (HS' : forall k, k < 4 -> size (conj cj A) (S k) = n) by exact HS.
  rewrite !HS, !HS' by lia.
  destruct (pbc_LU z o add mul SR A (conj cj A) V (twf_conj cj A (proj1 V)) eq_refl) as (M & EM & HM).
  unfold sq in EM. rewrite !HS in EM by lia. rewrite <- bind_bind, EM. cbn [bind]. rewrite (normalize_ok div is0 amax M (N1 M HM)). cbn [bind].
  assert (DM : tdims (unit_scale div amax M) = [n * n; n * n]). { cbn [unit_scale tmap tdims]. rewrite (proj1 (proj2 HM)). unfold fused. rewrite map_map. cbn. rewrite !HB by lia. reflexivity. }
  destruct (permute_swap2 (conj cj (unit_scale div amax M)) (n * n) DM) as (h & -> & Dh). cbn [bind].
  destruct (tbin_same sub h (unit_scale div amax M) _ Dh DM) as (dd & ->). cbn [bind].
  unfold py_assert. destruct (negligible dd _) eqn:EN1; [|left; split; [eauto|reflexivity]]. cbn [bind].
  replace (size (unit_scale div amax M) 0) with (n * n) by (unfold size; now rewrite DM). rewrite (HE M HM). cbn [bind].
  destruct (copy_legs z cv Hcv (tdiag z w) chi [Bdry (n * n); Bdry (n * n)] (twf_tbuild _ _) ltac:(cbn; now rewrite LW)) as (C & EC & HC). cbn [map lc_new lc_slice] in EC, HC.
  rewrite EC. cbn [bind].
  destruct (pbc_L z o add mul SR A (conj cj A) V (twf_conj cj A (proj1 V)) eq_refl) as (M' & EM' & HM').
  unfold sq in EM'. rewrite !HS in EM' by lia. rewrite <- bind_bind, EM'. cbn [bind]. rewrite (normalize_ok div is0 amax M' (N2 M' HM')). cbn [bind].
  assert (DM' : tdims (unit_scale div amax M') = [n * n; n * n; n * n]). { cbn [unit_scale tmap tdims]. rewrite (proj1 (proj2 HM')). unfold fused. rewrite map_map. cbn. rewrite !HB by lia. reflexivity. }
  destruct (rotated_ok (n * n) U (unit_scale div amax M') WU DU (twf_scale div amax M' (proj1 HM')) DM') as (N & -> & HN). cbn [bind].
  assert (DN : tdims N = [n * n; n * n; n * n]) by (rewrite (proj1 (proj2 HN)); reflexivity).
  destruct (permute_swap3 N (n * n) (n * n) DN) as (h' & -> & Dh'). cbn [bind].
  destruct (tbin_same sub N (conj cj h') _ DN Dh') as (dd' & ->). cbn [bind].
  destruct (negligible dd' _) eqn:EN2; [|left; split; [eauto|reflexivity]]. cbn [bind].
  destruct (copy_legs z cv Hcv N chi [Bdry (n * n); Bdry (n * n); Kept (n * n)] (proj1 HN) ltac:(cbn; exact DN)) as (T & ET & HT). cbn [map lc_new lc_slice] in ET, HT.
  rewrite ET. cbn [bind]. right. exists C, T, M', N. split; [reflexivity|]. split; [exists (tdiag z w); split; [apply tdiag_diagonal|exact HC]|]. split; [exact HM'|]. split; [exact HN|exact HT]. Qed.

Lemma c4v_given_ok chi x n (C0 C T : ten) : twf C0 -> tdims C0 = [chi; chi] -> twf C -> tdims C = [x; x] -> twf T -> tdims T = [x; x; n] -> x <= chi ->
  exists C' T', c4v_given z cv chi C0 C T = Ok (C', T') /\ ExtendSpec.padded z T [chi; chi; n] T' /\
    twf C' /\ tdims C' = [chi; chi] /\
    forall i j, i < chi -> j < chi -> entry z C' [i; j] = if (i <? x) && (j <? x) then entry z C [i; j] else entry z C0 [i; j].
Proof. intros W0 D0 WC DC WT DT Hx. unfold c4v_given, size. rewrite DC, DT. cbn [nth].
  destruct (ExtendProofs.tset_spec z cv C0 [Some x; Some x] C W0 WC) as (C' & -> & WC' & DC' & GC').
  { rewrite D0. cbn. lia. } { rewrite DC, D0. cbn. now rewrite Nat.min_l by exact Hx. }
  cbn [bind].
  destruct (ExtendProofs.tset_spec z cv (tzeros z [chi; chi; n]) [Some x; Some x; None] T (twf_tzeros _ _) WT) as (T' & -> & WT' & DT' & GT').
  { cbn. lia. } { rewrite DT. cbn. now rewrite Nat.min_l by exact Hx. }
  cbn [bind]. exists C', T'. split; [reflexivity|]. split.
  - split; [exact WT'|]. split; [exact DT'|]. intros ix R. rewrite (GT' ix R). f_equal. destruct (tget T ix); [now rewrite Hcv|apply ExtendProofs.zeros_val].
  - split; [exact WC'|]. split; [congruence|]. intros i j Hi Hj. unfold entry. rewrite GC' by (rewrite D0; repeat constructor; assumption).
    destruct (Nat.ltb_spec i x) as [Li|Li], (Nat.ltb_spec j x) as [Lj|Lj]; cbn [andb];
    [destruct (tget_Some C [i; j] WC) as [v ->]; [rewrite DC; repeat constructor; assumption|now rewrite Hcv]| | |];
    (rewrite (tget_None C [i; j] WC); [reflexivity|rewrite DC; intros R; inversion R as [|? ? ? ? R1 R2]; subst; inversion R2; subst; lia]). Qed.
End P.
