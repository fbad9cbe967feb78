(** The sorted spectrum. *)
From Coq Require Import Reals Lra.
From Verif Require Import Base BaseLemmas Tensor Net Transfer TransferSpec.
From Coq Require Import Permutation Lia.
Open Scope list_scope.
Open Scope nat_scope.
Open Scope res_scope.

Lemma cabs_modulus v : cabs v = modulus v.
Proof. unfold cabs, modulus. f_equal. ring. Qed.
Lemma modulus_nonneg v : (0 <= modulus v)%R.
Proof. apply sqrt_pos. Qed.
Lemma modulus_over m v : (0 < m)%R -> modulus (over m v) = (modulus v / m)%R.
Proof. intros Hm. unfold modulus, over. cbn [fst snd].
  replace ((fst v / m) ^ 2 + (snd v / m) ^ 2)%R with ((fst v ^ 2 + snd v ^ 2) / (m * m))%R by (field; lra).
  rewrite sqrt_div_alt by nra. rewrite sqrt_square by lra. reflexivity. Qed.
Lemma scale_over v0 v : cscale (1 / cabs v0) v = over (modulus v0) v.
Proof. unfold cscale, over. rewrite cabs_modulus. f_equal; unfold Rdiv; ring. Qed.
Lemma over_1 v : over 1 v = v.
Proof. destruct v as [x y]. unfold over. cbn [fst snd]. f_equal; field. Qed.

Lemma pick_ok {A} (d : A) l inds : (forall i, In i inds -> i < length l) -> pick l inds = Ok (map (fun i => nth i l d) inds).
Proof. intros H. unfold pick. induction inds as [|i inds IH]; [reflexivity|]. cbn [mapM map]. unfold at_index at 1.
  rewrite (nth_error_nth' l d) by (apply H; now left). cbn [bind]. rewrite IH by (intros k Hk; apply H; now right). reflexivity. Qed.
Lemma map_nth_seq {A} (d : A) l : map (fun i => nth i l d) (seq 0 (length l)) = l.
Proof. induction l as [|x l IH]; [reflexivity|]. cbn [length seq map nth]. f_equal. rewrite <- seq_shift, map_map. exact IH. Qed.
Lemma combine_map2 {A B C} (f : A -> B) (g : A -> C) l : combine (map f l) (map g l) = map (fun i => (f i, g i)) l.
Proof. induction l as [|x l IH]; [reflexivity|]. cbn [map combine]. now rewrite IH. Qed.

Lemma nth_map' {A B} (f : A -> B) l d d' i : i < length l -> nth i (map f l) d = f (nth i l d').
Proof. intros H. rewrite nth_indep with (d' := f d') by (now rewrite map_length). apply map_nth. Qed.

Section S.
Context {W : Type}.
Variable argsort : list R -> list nat.
Hypothesis HA : is_argsort argsort.
Variables (vals : list cplx) (vecs : list W) (n : nat) (m : R).
Hypothesis (Hn : length vals = n) (Hm : leading m vals) (Hm0 : m <> 0%R).
Let zero : cplx := (0, 0)%R.
Let inds := rev (argsort (map cabs vals)).
Lemma inds_perm : Permutation inds (seq 0 n).
Proof. unfold inds. rewrite <- Permutation_rev. destruct (HA (map cabs vals)) as [H _]. now rewrite map_length, Hn in H. Qed.
Lemma inds_lt i : In i inds -> i < n.
Proof. intros H. apply (Permutation_in _ inds_perm), in_seq in H. lia. Qed.
Lemma inds_len : length inds = n.
Proof. rewrite (Permutation_length inds_perm). apply seq_length. Qed.
Lemma m_pos : (0 < m)%R.
Proof. destruct Hm as [(v & _ & E) _]. assert (X := modulus_nonneg v). rewrite E in X. lra. Qed.
Let key i := modulus (nth i vals zero).
Lemma key_nth i : nth i (map cabs vals) 0%R = key i.
Proof. unfold key. destruct (Nat.lt_ge_cases i (length vals)) as [H|H].
  - rewrite nth_indep with (d' := cabs zero) by (now rewrite map_length). rewrite map_nth. apply cabs_modulus.
  - rewrite !nth_overflow by (rewrite ?map_length; exact H). unfold zero, modulus. cbn [fst snd]. replace (0 ^ 2 + 0 ^ 2)%R with 0%R by ring. now rewrite sqrt_0. Qed.
Lemma inds_desc i j : i <= j < n -> (key (nth j inds 0%nat) <= key (nth i inds 0%nat))%R.
Proof. intros H. destruct (HA (map cabs vals)) as [HP HS]. rewrite map_length, Hn in HS. assert (HL := Permutation_length HP). rewrite seq_length, map_length, Hn in HL.
  unfold inds. rewrite !rev_nth by (rewrite HL; lia). rewrite <- !key_nth. apply HS. lia. Qed.
Lemma first_leads : n <> 0 -> key (nth 0 inds 0%nat) = m.
Proof. intros H0. destruct Hm as [(v & Hv & E) Hmax]. apply Rle_antisym.
  - apply Hmax. apply nth_In. rewrite Hn. apply inds_lt. apply nth_In. rewrite inds_len. lia.
  - destruct (In_nth _ _ zero Hv) as (k & Hk & Ek). rewrite Hn in Hk.
    assert (Hi : In k inds) by (apply (Permutation_in _ (Permutation_sym inds_perm)), in_seq; lia).
    destruct (In_nth _ _ 0%nat Hi) as (j & Hj & Ej). rewrite inds_len in Hj. rewrite <- E, <- Ek. change (key k <= key (nth 0 inds 0%nat))%R. rewrite <- Ej. apply inds_desc. lia. Qed.
Lemma nth_sorted g i : i < n -> nth i (map (fun k => over g (nth k vals zero)) inds) zero = over g (nth (nth i inds 0%nat) vals zero).
Proof. intros H. apply (nth_map' (fun k => over g (nth k vals zero))). now rewrite inds_len. Qed.
Lemma sorted_desc g : (0 < g)%R -> descending (map (fun k => over g (nth k vals zero)) inds).
Proof. intros Hg i j. rewrite map_length, inds_len. intros H. rewrite !nth_sorted by lia. rewrite !modulus_over by exact Hg.
  unfold Rdiv. apply Rmult_le_compat_r; [left; now apply Rinv_0_lt_compat|]. now apply inds_desc. Qed.
Lemma sorted_spec_ok normalize ev : n <> 0 -> (ev = true -> length vecs = n) ->
  exists L X, sorted_spec argsort n normalize ev (vals, vecs) = Ok (L, X) /\
  sorted_values (if normalize then m else 1%R) vals L /\
  (if ev then sorted_pairs (if normalize then m else 1%R) vals vecs L X else X = []) /\
  (normalize = true -> modulus (nth 0 L (0, 0)%R) = 1%R).
Proof. intros H0 HE. set (g := if normalize then m else 1%R).
  assert (Hg : (0 < g)%R) by (unfold g; destruct normalize; [exact m_pos|lra]).
  set (L := map (fun k => over g (nth k vals zero)) inds).
  assert (EL : to_rows n normalize (map (fun i => nth i vals zero) inds) = Ok L).
  { unfold to_rows. destruct normalize; cbn [bind].
    - unfold at_index. rewrite (nth_error_nth' _ zero) by (rewrite map_length, inds_len; lia). cbn [bind].
      rewrite (nth_map' (fun i => nth i vals zero) inds zero 0%nat) by (rewrite inds_len; lia).
      rewrite !map_length, inds_len, Nat.eqb_refl. unfold L. rewrite map_map. f_equal. apply map_ext. intros k. rewrite scale_over. f_equal. apply first_leads. exact H0.
    - rewrite map_length, inds_len, Nat.eqb_refl. unfold L. f_equal. apply map_ext. intros k. unfold g. now rewrite over_1. }
  assert (HP : forall {A} (f : nat -> A), Permutation (map f inds) (map f (seq 0 n))) by (intros A f; apply Permutation_map, inds_perm).
  assert (HV : sorted_values g vals L).
  { split; [now apply sorted_desc|]. unfold L. rewrite HP, <- map_map with (f := fun k => nth k vals zero) (g := over g). rewrite <- Hn, map_nth_seq. reflexivity. }
  assert (H1 : normalize = true -> modulus (nth 0 L (0, 0)%R) = 1%R).
  { intros EN. unfold L. rewrite nth_sorted by lia. rewrite modulus_over by exact Hg. change (modulus _) with (key (nth 0 inds 0%nat)). rewrite first_leads by exact H0. unfold g. rewrite EN. field. exact Hm0. }
  unfold sorted_spec. cbn [fst snd]. fold inds. rewrite (pick_ok zero) by (intros i Hi; rewrite Hn; now apply inds_lt). cbn [bind]. rewrite EL. cbn [bind]. destruct ev.
  - destruct vecs as [|w0 vecs'] eqn:EW; [specialize (HE eq_refl); cbn in HE; congruence|]. rewrite <- EW in *. clear EW.
    rewrite (pick_ok w0) by (intros i Hi; rewrite HE by reflexivity; now apply inds_lt). cbn [bind]. eexists L, _. split; [reflexivity|]. split; [exact HV|]. split; [|exact H1]. split; [now apply sorted_desc|]. split.
    + unfold L. now rewrite !map_length.
    + unfold L. rewrite combine_map2, HP.
      assert (EC : @combine (R * R) W vals vecs = map (fun i => (nth i vals zero, nth i vecs w0)) (seq 0 n)).
      { rewrite <- combine_map2. rewrite <- Hn at 1. rewrite <- (HE eq_refl). now rewrite !map_nth_seq. }
      rewrite EC, map_map. reflexivity.
  - exists L, []. split; [reflexivity|]. split; [exact HV|]. split; [reflexivity|exact H1]. Qed.
End S.
