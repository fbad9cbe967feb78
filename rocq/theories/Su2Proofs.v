From Verif Require Import Base BaseLemmas Tensor TensorLemmas Su2 Su2Spec.
From Coq Require Import Reals Lra.
Open Scope list_scope.
Open Scope R_scope.

Lemma in_range2 m i j : (i < m)%nat -> (j < m)%nat -> in_range [m; m] [i; j].
Proof. intros; repeat constructor; assumption. Qed.

Lemma assign_loop_ok m rng g v : NoDup rng -> (forall i, In i rng -> (i < m)%nat /\ (g i < m)%nat) ->
  forall t, twf t -> tdims t = [m; m] ->
  exists t', assign_loop rng g v t = Ok t' /\ twf t' /\ tdims t' = [m; m] /\
    forall i j, (i < m)%nat -> (j < m)%nat -> mel t' i j = if (if in_dec Nat.eq_dec i rng then Nat.eqb j (g i) else false) then v i else mel t i j.
Proof. unfold assign_loop. induction rng as [|k rng IH]; intros Hd Hr t Hw Hdm.
  - exists t. repeat split; try assumption.
  - inversion Hd as [|? ? Hk Hd']; subst. cbn [foldM]. destruct (Hr k (or_introl eq_refl)) as [H1 H2].
    pose proof (in_range2 m k (g k) H1 H2) as Hin.
    assert (N : norm_indices (tdims t) [Z.of_nat k; Z.of_nat (g k)] = Ok [k; g k]) by (rewrite Hdm; exact (norm_indices_nat [m; m] [k; g k] Hin)).
    destruct (tupdate_ok t _ (fun _ => v k) _ N) as [t1 E1]. rewrite E1. cbn [bind].
    destruct (tupdate_spec t _ _ t1 Hw E1) as (p & N' & W1 & D1 & G1). assert (p = [k; g k]) by congruence. subst p.
    destruct (IH Hd' (fun i Hi => Hr i (or_intror Hi)) t1 W1 ltac:(congruence)) as (t' & E' & W' & D' & G').
    exists t'. split; [exact E'|]. split; [exact W'|]. split; [exact D'|]. intros i j Hi Hj. rewrite G' by assumption.
    assert (M1 : mel t1 i j = if (Nat.eqb k i && Nat.eqb (g k) j)%bool then v k else mel t i j).
    { unfold mel. rewrite G1. destruct (tget_Some t [i; j] Hw ltac:(rewrite Hdm; now apply in_range2)) as [x ->]. cbn [option_map is_prefix].
      rewrite andb_true_r. now destruct (Nat.eqb k i && Nat.eqb (g k) j)%bool. }
    rewrite M1. destruct (in_dec Nat.eq_dec i (k :: rng)) as [I|I], (in_dec Nat.eq_dec i rng) as [J|J].
    + destruct (Nat.eqb j (g i)) eqn:Ej; [reflexivity|]. destruct (Nat.eqb_spec k i) as [->|]; [contradiction|]. reflexivity.
    + destruct I as [->|I]; [|contradiction]. rewrite Nat.eqb_refl. cbn [andb]. rewrite Nat.eqb_sym. reflexivity.
    + exfalso. apply I. now right.
    + destruct (Nat.eqb_spec k i) as [->|]; [exfalso; apply I; now left|]. reflexivity. Qed.

Lemma zeros_mel m i j : (i < m)%nat -> (j < m)%nat -> mel (zeros2 m) i j = 0.
Proof. intros. unfold mel, zeros2. now rewrite tget_tzeros by (now apply in_range2). Qed.

(** ** sums with few terms *)
Lemma rsum_ext n f g : (forall k, (k < n)%nat -> f k = g k) -> rsum n f = rsum n g.
Proof. induction n as [|n IH]; intros H; [reflexivity|]. cbn. rewrite IH by (intros; apply H; lia). now rewrite H by lia. Qed.
Lemma rsum_0 n f : (forall k, (k < n)%nat -> f k = 0) -> rsum n f = 0.
Proof. induction n as [|n IH]; intros H; [reflexivity|]. cbn. rewrite IH by (intros; apply H; lia). rewrite H by lia. lra. Qed.
Lemma rsum_one n f k0 : (k0 < n)%nat -> (forall k, (k < n)%nat -> k <> k0 -> f k = 0) -> rsum n f = f k0.
Proof. induction n as [|n IH]; intros H1 H2; [lia|]. cbn. destruct (Nat.eq_dec k0 n) as [->|N].
  - rewrite rsum_0; [lra|]. intros k Hk. apply H2; lia.
  - rewrite IH by (try lia; intros; apply H2; lia). rewrite (H2 n) by lia. lra. Qed.

(** ** the operators *)
Section Ops.
Variable m : nat.
Definition zed (i j : nat) : R := if Nat.eqb i j then spin m - INR i else 0.
(** S(S+1) - M(M+1) at M = -S+i *)
Definition cc (i : nat) : R := (INR i + 1) * (INR m - 1 - INR i).
Definition up (i j : nat) : R := if Nat.eqb j (S i) then sqrt (cc i) else 0.
Definition dn (i j : nat) : R := if Nat.eqb i (S j) then sqrt (cc j) else 0.

Lemma seq_in n i : In i (seq 0 n) <-> (i < n)%nat.
Proof. rewrite in_seq. lia. Qed.

Lemma get_sz : exists t, get_op m OpSz = Ok t /\ twf t /\ tdims t = [m; m] /\ meq m (mel t) zed.
Proof. cbn [get_op]. destruct (assign_loop_ok m (seq 0 m) (fun i => i) (v_sz m) (seq_NoDup m 0)
      ltac:(intros i Hi; apply seq_in in Hi; cbn beta; lia) (zeros2 m) (twf_tzeros _ _) eq_refl) as (t & E & W & D & G).
  exists t. split; [exact E|]. split; [exact W|]. split; [exact D|]. intros i j Hi Hj. rewrite G by assumption.
  destruct (in_dec Nat.eq_dec i (seq 0 m)) as [I|I]; [|rewrite seq_in in I; lia].
  unfold zed. rewrite Nat.eqb_sym. destruct (Nat.eqb i j); [|now apply zeros_mel]. unfold v_sz, spin. lra. Qed.

Lemma cc_pos i : (S i < m)%nat -> 0 < cc i.
Proof. intros H. unfold cc. apply Rmult_lt_0_compat; [pose proof (pos_INR i); lra|]. apply lt_INR in H. rewrite S_INR in H. lra. Qed.

Lemma get_sp : exists t, get_op m OpSp = Ok t /\ twf t /\ tdims t = [m; m] /\ meq m (mel t) up.
Proof. cbn [get_op]. destruct (assign_loop_ok m (seq 0 (m - 1)) (fun i => (i + 1)%nat) (v_sp m) (seq_NoDup _ 0)
      ltac:(intros i Hi; apply seq_in in Hi; cbn beta; lia) (zeros2 m) (twf_tzeros _ _) eq_refl) as (t & E & W & D & G).
  exists t. split; [exact E|]. split; [exact W|]. split; [exact D|]. intros i j Hi Hj. rewrite G by assumption. unfold up.
  replace (i + 1)%nat with (S i) by lia.
  destruct (in_dec Nat.eq_dec i (seq 0 (m - 1))) as [I|I]; rewrite seq_in in I.
  - destruct (Nat.eqb j (S i)); [|now apply zeros_mel]. unfold v_sp, cc. f_equal. lra.
  - rewrite (proj2 (Nat.eqb_neq j (S i))) by lia. now apply zeros_mel. Qed.

Lemma get_sm : exists t, get_op m OpSm = Ok t /\ twf t /\ tdims t = [m; m] /\ meq m (mel t) dn.
Proof. cbn [get_op]. destruct (assign_loop_ok m (seq 1 (m - 1)) (fun i => (i - 1)%nat) (v_sm m) (seq_NoDup _ 1)
      ltac:(intros i Hi; apply in_seq in Hi; cbn beta; lia) (zeros2 m) (twf_tzeros _ _) eq_refl) as (t & E & W & D & G).
  exists t. split; [exact E|]. split; [exact W|]. split; [exact D|]. intros i j Hi Hj. rewrite G by assumption. unfold dn.
  destruct (in_dec Nat.eq_dec i (seq 1 (m - 1))) as [I|I]; rewrite in_seq in I.
  - destruct (Nat.eqb_spec j (i - 1)) as [->|N].
    + replace (S (i - 1)) with i by lia. rewrite Nat.eqb_refl. unfold v_sm, cc. f_equal. rewrite minus_INR by lia. change (INR 1) with 1. lra.
    + rewrite (proj2 (Nat.eqb_neq i (S j))) by lia. now apply zeros_mel.
  - rewrite (proj2 (Nat.eqb_neq i (S j))) by lia. now apply zeros_mel. Qed.

(** products of these *)
Lemma mmul_ext A A' B B' : meq m A A' -> meq m B B' -> meq m (mmul m A B) (mmul m A' B').
Proof. intros HA HB i j Hi Hj. unfold mmul. apply rsum_ext. intros k Hk. now rewrite HA, HB. Qed.

Lemma zed_l B i j : (i < m)%nat -> mmul m zed B i j = (spin m - INR i) * B i j.
Proof. intros Hi. unfold mmul. rewrite (rsum_one m _ i Hi).
  - unfold zed. now rewrite Nat.eqb_refl.
  - intros k Hk N. unfold zed. rewrite (proj2 (Nat.eqb_neq i k)) by lia. lra. Qed.
Lemma zed_r B i j : (j < m)%nat -> mmul m B zed i j = B i j * (spin m - INR j).
Proof. intros Hj. unfold mmul. rewrite (rsum_one m _ j Hj).
  - unfold zed. now rewrite Nat.eqb_refl.
  - intros k Hk N. unfold zed. rewrite (proj2 (Nat.eqb_neq k j)) by lia. lra. Qed.

Lemma up_dn i j : (i < m)%nat -> (j < m)%nat -> mmul m up dn i j = if Nat.eqb i j then cc i else 0.
Proof. intros Hi Hj. unfold mmul. destruct (Nat.eq_dec (S i) m) as [E|N].
  - rewrite rsum_0.
    + destruct (Nat.eqb_spec i j); [|reflexivity]. unfold cc. rewrite <- E, S_INR. lra.
    + intros k Hk. unfold up. rewrite (proj2 (Nat.eqb_neq k (S i))) by lia. lra.
  - rewrite (rsum_one m _ (S i)) by (try lia; intros k Hk Nk; unfold up; rewrite (proj2 (Nat.eqb_neq k (S i))) by lia; lra).
    unfold up, dn. rewrite Nat.eqb_refl. cbn [Nat.eqb]. destruct (Nat.eqb_spec i j) as [->|]; [|lra].
    apply sqrt_sqrt. apply Rlt_le, cc_pos. lia. Qed.
(** S(S+1) - M(M-1) *)
Definition cd (i : nat) : R := INR i * (INR m - INR i).
Lemma dn_up i j : (i < m)%nat -> (j < m)%nat -> mmul m dn up i j = if Nat.eqb i j then cd i else 0.
Proof. intros Hi Hj. unfold mmul. destruct i as [|i].
  - rewrite rsum_0.
    + destruct (Nat.eqb 0 j); [|reflexivity]. unfold cd. cbn. lra.
    + intros k Hk. unfold dn. cbn [Nat.eqb]. lra.
  - rewrite (rsum_one m _ i) by (try lia; intros k Hk Nk; unfold dn; cbn [Nat.eqb]; rewrite (proj2 (Nat.eqb_neq i k)) by lia; lra).
    unfold up, dn. rewrite Nat.eqb_refl. rewrite (Nat.eqb_sym j (S i)). destruct (Nat.eqb (S i) j); [|lra].
    rewrite sqrt_sqrt by (apply Rlt_le, cc_pos; lia). unfold cc, cd. rewrite S_INR. lra. Qed.

Lemma algebra_explicit : spin_algebra m zed up dn.
Proof. split; [|split; [|split; [|split; [|split]]]].
  - intros i j Hi Hj. unfold comm, msub. rewrite zed_l, zed_r by assumption. unfold up. destruct (Nat.eqb_spec j (S i)) as [->|]; [rewrite S_INR; lra|lra].
  - intros i j Hi Hj. unfold comm, msub, mscale. rewrite zed_l, zed_r by assumption. unfold dn. destruct (Nat.eqb_spec i (S j)) as [->|]; [rewrite S_INR; lra|lra].
  - intros i j Hi Hj. unfold comm, msub, mscale. rewrite up_dn, dn_up by assumption. unfold zed. destruct (Nat.eqb i j); [|lra]. unfold cc, cd, spin. lra.
  - intros i j Hi Hj. reflexivity.
  - intros i j Hi Hj. unfold madd, mscale, mid. rewrite zed_l by exact Hi. rewrite up_dn, dn_up by assumption. unfold zed.
    destruct (Nat.eqb i j); [|lra]. unfold cc, cd, spin. lra.
  - intros i j Hi Hj. reflexivity. Qed.

Lemma comm_ext A A' B B' : meq m A A' -> meq m B B' -> meq m (comm m A B) (comm m A' B').
Proof. intros HA HB i j Hi Hj. unfold comm, msub. rewrite (mmul_ext A A' B B' HA HB i j Hi Hj). now rewrite (mmul_ext B B' A A' HB HA i j Hi Hj). Qed.

Lemma spin_algebra_ext A A' B B' C C' : meq m A A' -> meq m B B' -> meq m C C' -> spin_algebra m A' B' C' -> spin_algebra m A B C.
Proof. intros HA HB HC (H1 & H2 & H3 & H4 & H5 & H6).
  split; [|split; [|split; [|split; [|split]]]]; intros i j Hi Hj.
  - rewrite (comm_ext A A' B B' HA HB i j Hi Hj), HB by assumption. now apply H1.
  - unfold mscale. rewrite (comm_ext A A' C C' HA HC i j Hi Hj), HC by assumption. now apply H2.
  - unfold mscale. rewrite (comm_ext B B' C C' HB HC i j Hi Hj), HA by assumption. now apply H3.
  - unfold mtrans. rewrite HC, HB by assumption. now apply H4.
  - unfold madd, mscale. rewrite (mmul_ext A A' A A' HA HA i j Hi Hj), (mmul_ext B B' C C' HB HC i j Hi Hj), (mmul_ext C C' B B' HC HB i j Hi Hj). now apply H5.
  - rewrite HA by assumption. now apply H6. Qed.

Lemma su2_algebra : exists Sz Sp Sm, get_op m OpSz = Ok Sz /\ get_op m OpSp = Ok Sp /\ get_op m OpSm = Ok Sm /\
  tdims Sz = [m; m] /\ tdims Sp = [m; m] /\ tdims Sm = [m; m] /\ spin_algebra m (mel Sz) (mel Sp) (mel Sm).
Proof. destruct get_sz as (z & Ez & _ & Dz & Gz), get_sp as (p & Ep & _ & Dp & Gp), get_sm as (q & Eq & _ & Dq & Gq).
  exists z, p, q. repeat (split; [assumption|]). apply (spin_algebra_ext _ zed _ up _ dn); try assumption. apply algebra_explicit. Qed.

(** ** the rotation *)
Definition rot (i j : nat) : R := if Nat.eqb j (m - 1 - i) then (-1) ^ i else 0.
Lemma get_rot : exists t, get_rot_op m = Ok t /\ twf t /\ tdims t = [m; m] /\ meq m (mel t) rot.
Proof. unfold get_rot_op. destruct (assign_loop_ok m (seq 0 m) (fun i => (m - 1 - i)%nat) (fun i => (-1) ^ i) (seq_NoDup m 0)
      ltac:(intros i Hi; apply seq_in in Hi; cbn beta; lia) (zeros2 m) (twf_tzeros _ _) eq_refl) as (t & E & W & D & G).
  exists t. split; [exact E|]. split; [exact W|]. split; [exact D|]. intros i j Hi Hj. rewrite G by assumption.
  destruct (in_dec Nat.eq_dec i (seq 0 m)) as [I|I]; [|rewrite seq_in in I; lia].
  unfold rot. destruct (Nat.eqb j (m - 1 - i)); [reflexivity|now apply zeros_mel]. Qed.

Lemma rot_l B i j : (i < m)%nat -> mmul m rot B i j = (-1) ^ i * B (m - 1 - i)%nat j.
Proof. intros Hi. unfold mmul. rewrite (rsum_one m _ (m - 1 - i)) by (try lia; intros k Hk N; unfold rot; rewrite (proj2 (Nat.eqb_neq k (m - 1 - i))) by lia; lra).
  unfold rot. now rewrite Nat.eqb_refl. Qed.
Lemma rot_r B i j : (j < m)%nat -> mmul m B (mtrans rot) i j = B i (m - 1 - j)%nat * (-1) ^ j.
Proof. intros Hj. unfold mmul. rewrite (rsum_one m _ (m - 1 - j)) by (try lia; intros k Hk N; unfold mtrans, rot; rewrite (proj2 (Nat.eqb_neq k (m - 1 - j))) by lia; lra).
  unfold mtrans, rot. now rewrite Nat.eqb_refl. Qed.
Lemma sq_m1 i : (-1) ^ i * (-1) ^ i = 1.
Proof. rewrite <- Rpow_mult_distr. replace (-1 * -1) with 1 by lra. apply pow1. Qed.
Lemma m1_add i j : (-1) ^ i * (-1) ^ j = (-1) ^ (i + j).
Proof. now rewrite pow_add. Qed.

Lemma rotation_explicit : bipartite_rotation m rot zed up dn.
Proof. split; [|split; [|split; [|split]]]; intros i j Hi Hj.
  - rewrite rot_l by exact Hi. unfold rot, mscale, mid. replace (m - 1 - (m - 1 - i))%nat with i by lia. rewrite (Nat.eqb_sym j i).
    destruct (Nat.eqb i j); [|lra]. rewrite m1_add. replace (i + (m - 1 - i))%nat with (m - 1)%nat by lia. lra.
  - rewrite rot_l by exact Hi. unfold mtrans, rot, mid. destruct (Nat.eqb_spec (m - 1 - i) (m - 1 - j)) as [E|N].
    + assert (i = j) by lia. subst j. rewrite Nat.eqb_refl. apply sq_m1.
    + rewrite (proj2 (Nat.eqb_neq i j)) by lia. lra.
  - rewrite rot_r by exact Hj. rewrite rot_l by exact Hi. unfold zed, mscale. destruct (Nat.eqb_spec (m - 1 - i) (m - 1 - j)) as [E|N].
    + assert (i = j) by lia. subst j. rewrite Nat.eqb_refl.
      replace ((-1) ^ i * (spin m - INR (m - 1 - i)) * (-1) ^ i) with ((-1) ^ i * (-1) ^ i * (spin m - INR (m - 1 - i))) by lra.
      rewrite sq_m1. rewrite !minus_INR by lia. unfold spin. change (INR 1) with 1. lra.
    + rewrite (proj2 (Nat.eqb_neq i j)) by lia. lra.
  - rewrite rot_r by exact Hj. rewrite rot_l by exact Hi. unfold up, dn, mscale. destruct (Nat.eqb_spec (m - 1 - j) (S (m - 1 - i))) as [E|N].
    + assert (i = S j) by lia. subst i. rewrite Nat.eqb_refl.
      replace ((-1) ^ S j * sqrt (cc (m - 1 - S j)) * (-1) ^ j) with (((-1) ^ j * (-1) ^ j) * (-1 * sqrt (cc (m - 1 - S j)))) by (cbn [pow]; lra).
      rewrite sq_m1. assert (C : cc (m - 1 - S j) = cc j); [|rewrite C; lra].
      unfold cc. rewrite !minus_INR by lia. rewrite (S_INR j). change (INR 1) with 1. lra.
    + rewrite (proj2 (Nat.eqb_neq i (S j))) by lia. lra.
  - rewrite rot_r by exact Hj. rewrite rot_l by exact Hi. unfold up, dn, mscale. destruct (Nat.eqb_spec (m - 1 - i) (S (m - 1 - j))) as [E|N].
    + assert (j = S i) by lia. subst j. rewrite Nat.eqb_refl.
      replace ((-1) ^ i * sqrt (cc (m - 1 - S i)) * (-1) ^ S i) with (((-1) ^ i * (-1) ^ i) * (-1 * sqrt (cc (m - 1 - S i)))) by (cbn [pow]; lra).
      rewrite sq_m1. assert (C : cc (m - 1 - S i) = cc i); [|rewrite C; lra].
      unfold cc. rewrite !minus_INR by lia. rewrite (S_INR i). change (INR 1) with 1. lra.
    + rewrite (proj2 (Nat.eqb_neq j (S i))) by lia. lra. Qed.

Lemma meq_trans A A' : meq m A A' -> meq m (mtrans A) (mtrans A').
Proof. intros H i j Hi Hj. unfold mtrans. now apply H. Qed.

Lemma rotation_ext R R' A A' B B' C C' : meq m R R' -> meq m A A' -> meq m B B' -> meq m C C' ->
  bipartite_rotation m R' A' B' C' -> bipartite_rotation m R A B C.
Proof. intros HR HA HB HC (H1 & H2 & H3 & H4 & H5). pose proof (meq_trans _ _ HR) as HT.
  split; [|split; [|split; [|split]]]; intros i j Hi Hj.
  - rewrite (mmul_ext R R' R R' HR HR i j Hi Hj). now apply H1.
  - rewrite (mmul_ext _ _ _ _ HR HT i j Hi Hj). now apply H2.
  - rewrite (mmul_ext _ _ _ _ (mmul_ext _ _ _ _ HR HA) HT i j Hi Hj). unfold mscale. rewrite HA by assumption. now apply H3.
  - rewrite (mmul_ext _ _ _ _ (mmul_ext _ _ _ _ HR HB) HT i j Hi Hj). unfold mscale. rewrite HC by assumption. now apply H4.
  - rewrite (mmul_ext _ _ _ _ (mmul_ext _ _ _ _ HR HC) HT i j Hi Hj). unfold mscale. rewrite HB by assumption. now apply H5. Qed.

Lemma su2_rotation : exists Rm Sz Sp Sm, get_rot_op m = Ok Rm /\ get_op m OpSz = Ok Sz /\ get_op m OpSp = Ok Sp /\ get_op m OpSm = Ok Sm /\
  tdims Rm = [m; m] /\ bipartite_rotation m (mel Rm) (mel Sz) (mel Sp) (mel Sm).
Proof. destruct get_rot as (r & Er & _ & Dr & Gr), get_sz as (z & Ez & _ & Dz & Gz), get_sp as (p & Ep & _ & Dp & Gp), get_sm as (q & Eq & _ & Dq & Gq).
  exists r, z, p, q. repeat (split; [assumption|]). apply (rotation_ext _ rot _ zed _ up _ dn); try assumption. apply rotation_explicit. Qed.

(** ** exchange *)
Lemma in_range4 i a j b : (i < m)%nat -> (a < m)%nat -> (j < m)%nat -> (b < m)%nat -> in_range [m; m; m; m] [i; a; j; b].
Proof. intros; repeat constructor; assumption. Qed.
Lemma kron_mel A B i a j b : (i < m)%nat -> (a < m)%nat -> (j < m)%nat -> (b < m)%nat -> mel4 (kron m A B) i a j b = mel A i j * mel B a b.
Proof. intros. unfold mel4, kron. now rewrite tget_tbuild by (now apply in_range4). Qed.
Lemma scale_mel c t i a j b : mel4 (tscale c t) i a j b = c * mel4 t i a j b.
Proof. unfold mel4, tscale. rewrite tget_tmap. destruct (tget t _); cbn; lra. Qed.
Lemma plus_wf A B : twf A -> twf B -> tdims A = tdims B -> twf (tplus A B).
Proof. unfold twf, tplus. cbn. intros H1 H2 H3. rewrite map_length, combine_length. rewrite H1, H2, H3. apply Nat.min_id. Qed.
Lemma tget_plus A B ix : twf A -> twf B -> tdims A = tdims B ->
  tget (tplus A B) ix = match tget A ix, tget B ix with Some a, Some b => Some (a + b) | _, _ => None end.
Proof. unfold twf, tget, telts, tplus. cbn [tdims tdata]. intros H1 H2 H3. rewrite <- H3 in *. rewrite <- length_indices in H1, H2.
  revert H1 H2. generalize (tdata A) (tdata B). induction (indices (tdims A)) as [|x l IH]; intros [|a la] [|b lb] H1 H2; cbn in *; try discriminate; [reflexivity|].
  destruct (eq_dec ix x); [reflexivity|]. apply IH; congruence. Qed.
Lemma plus_mel A B i a j b : twf A -> twf B -> tdims A = [m; m; m; m] -> tdims B = [m; m; m; m] ->
  (i < m)%nat -> (a < m)%nat -> (j < m)%nat -> (b < m)%nat -> mel4 (tplus A B) i a j b = mel4 A i a j b + mel4 B i a j b.
Proof. intros WA WB DA DB Hi Ha Hj Hb. unfold mel4. rewrite tget_plus by congruence.
  pose proof (in_range4 i a j b Hi Ha Hj Hb) as Hr.
  destruct (tget_Some A _ WA ltac:(rewrite DA; exact Hr)) as [u ->], (tget_Some B _ WB ltac:(rewrite DB; exact Hr)) as [v ->]. reflexivity. Qed.

Lemma SS_mel x y z : exists t Sz Sp Sm, SS m x y z = Ok t /\ get_op m OpSz = Ok Sz /\ get_op m OpSp = Ok Sp /\ get_op m OpSm = Ok Sm /\
  tdims t = [m; m; m; m] /\ meq m (mel Sz) zed /\ meq m (mel Sp) up /\ meq m (mel Sm) dn /\
  meq4 m (mel4 t) (fun i a j b => x * (zed i j * zed a b) + 5/10 * y * (up i j * dn a b) + 5/10 * z * (dn i j * up a b)).
Proof. unfold SS. destruct get_sz as (tz & Ez & Wz & Dz & Gz), get_sp as (p & Ep & Wp & Dp & Gp), get_sm as (q & Eq & Wq & Dq & Gq).
  rewrite Ez, Ep, Eq. cbn [bind]. eexists. exists tz, p, q. split; [reflexivity|].
  do 3 (split; [reflexivity|]). split; [reflexivity|]. do 3 (split; [assumption|]).
  assert (WK : forall A B c, twf (tscale c (kron m A B))) by (intros; apply twf_tmap, twf_tbuild).
  intros i a j b Hi Ha Hj Hb. rewrite !plus_mel by (first [assumption|reflexivity|apply WK|apply plus_wf; [apply WK|apply WK|reflexivity]]).
  rewrite !scale_mel, !kron_mel by assumption. rewrite (Gz i j), (Gz a b), (Gp i j), (Gp a b), (Gq i j), (Gq a b) by assumption. lra. Qed.

Lemma SS_documented_iff x y z : (2 <= m)%nat -> exists t Sz Sp Sm,
  SS m x y z = Ok t /\ get_op m OpSz = Ok Sz /\ get_op m OpSp = Ok Sp /\ get_op m OpSm = Ok Sm /\
  (meq4 m (mel4 t) (exchange x y z (mel Sz) (mel Sp) (mel Sm)) <-> y = z) /\ (hermitian4 m (mel4 t) <-> y = z).
Proof. intros Hm. destruct (SS_mel x y z) as (t & Sz & Sp & Sm & E & Ez & Ep & Eq & D & Gz & Gp & Gq & G).
  exists t, Sz, Sp, Sm. do 4 (split; [assumption|]).
  assert (C0 : sqrt (cc 0) <> 0). { intros C. apply sqrt_eq_0 in C; [|apply Rlt_le, cc_pos; lia]. pose proof (cc_pos 0 ltac:(lia)). lra. }
  assert (U : up 0 1 = sqrt (cc 0)) by reflexivity. assert (U' : up 1 0 = 0) by reflexivity.
  assert (V : dn 1 0 = sqrt (cc 0)) by reflexivity. assert (V' : dn 0 1 = 0) by reflexivity.
  assert (Z0 : zed 0 1 = 0) by reflexivity. assert (Z1 : zed 1 0 = 0) by reflexivity.
  assert (SQ : sqrt (cc 0) * sqrt (cc 0) <> 0) by (intros C; apply Rmult_integral in C; tauto).
  split; split.
  - intros H. specialize (H 0%nat 0%nat 1%nat 1%nat ltac:(lia) ltac:(lia) ltac:(lia) ltac:(lia)). rewrite G in H by lia.
    unfold exchange in H. rewrite (Gz 0%nat 1%nat), (Gp 0%nat 1%nat), (Gq 0%nat 1%nat) in H by lia. rewrite U, V', Z0 in H.
    assert (K : (y - z) * (sqrt (cc 0) * sqrt (cc 0)) = 0) by lra. apply Rmult_integral in K as [K|K]; [lra|contradiction].
  - intros <- i a j b Hi Ha Hj Hb. rewrite G by assumption. unfold exchange.
    rewrite (Gz i j), (Gz a b), (Gp i j), (Gp a b), (Gq i j), (Gq a b) by assumption. field.
  - intros H. specialize (H 0%nat 1%nat 1%nat 0%nat ltac:(lia) ltac:(lia) ltac:(lia) ltac:(lia)). cbn in H. rewrite !G in H by lia.
    rewrite U, V, U', V', Z0, Z1 in H.
    assert (K : (y - z) * (sqrt (cc 0) * sqrt (cc 0)) = 0) by lra. apply Rmult_integral in K as [K|K]; [lra|contradiction].
  - intros <- i a j b Hi Ha Hj Hb. rewrite !G by assumption.
    assert (Zs : forall p q, zed p q = zed q p) by (intros p q; unfold zed; rewrite (Nat.eqb_sym p q); destruct (Nat.eqb_spec q p); congruence).
    assert (Us : forall p q, up p q = dn q p) by reflexivity.
    rewrite (Zs i j), (Zs a b), (Us i j), (Us a b), (Us j i), (Us b a). lra. Qed.
End Ops.
