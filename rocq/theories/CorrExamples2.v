(** Two-site operators: a decomposition, a case of the theorem, and the transfer matrix that loses the singular values. *)
From Verif Require Import Base BaseLemmas Lattice Tensor TensorLemmas Net NetSpec NetProofs Corners CornersSpec Rdm RdmSpec RdmExamples Corr CorrSpec CorrProofs5 GaussQ CorrExamples.
From Verif Require Ctm.
From Coq Require Import Ring Field.
Open Scope list_scope.
Open Scope nat_scope.
Open Scope res_scope.

(** M = M 1 1^dagger *)
Definition delta (n : nat) : tensor gq := tbuild [n; n] (fun ix => match ix with [i; j] => if i =? j then gq_o else gq_z | _ => gq_z end).
Definition triv_svd (m : tensor gq) : res (tensor gq * list gq * tensor gq) :=
  let n := nth 0 (tdims m) 0 in Ok (m, repeat gq_o n, delta n).
Lemma in_range2 n i j : i < n -> j < n -> in_range [n; n] [i; j].
Proof. intros. repeat constructor; assumption. Qed.
Add Ring GQ : (F_R gq_field).
Lemma sum_at (f : nat -> gq) j n a : a <= j < a + n ->
  sum_list gq_z gq_add (map (fun k => if j =? k then f k else gq_z) (seq a n)) = f j.
Proof. revert a. induction n as [|n IH]; intros a H; [lia|]. cbn [seq map]. cbn [sum_list fold_right].
  destruct (j =? a) eqn:E.
  - apply Nat.eqb_eq in E. subst a. replace (fold_right gq_add gq_z (map (fun k => if j =? k then f k else gq_z) (seq (S j) n))) with gq_z; [ring|].
    clear. assert (G : forall a, j < a -> gq_z = fold_right gq_add gq_z (map (fun k => if j =? k then f k else gq_z) (seq a n))); [|apply G; lia].
    induction n as [|n IH]; intros a Ha; [reflexivity|]. cbn. rewrite (proj2 (Nat.eqb_neq j a)) by lia. rewrite <- IH by lia. ring.
  - apply Nat.eqb_neq in E. change (fold_right gq_add gq_z ?l) with (sum_list gq_z gq_add l). rewrite IH by lia. ring. Qed.
Lemma triv_exact : svd_exact gq_z gq_add gq_mul gq_cj triv_svd.
Proof. intros m n Hn W Hd. exists m, (repeat gq_o n), (delta n). split; [unfold triv_svd; now rewrite Hd|]. split; [destruct n; [lia|discriminate]|].
  split; [exact W|]. split; [apply twf_tbuild|]. rewrite repeat_length. split; [exact Hd|]. split; [reflexivity|].
  intros i j Hi Hj. rewrite <- (sum_at (fun k => entry gq_z m [i; k]) j n 0) by lia. f_equal. apply map_ext_in. intros k Hk. apply in_seq in Hk.
  rewrite (nth_indep _ gq_z gq_o), nth_repeat by (rewrite repeat_length; lia). unfold delta. unfold entry at 3. rewrite tget_tbuild by (apply in_range2; lia).
  destruct (j =? k).
  - replace (gq_cj gq_o) with gq_o by (apply gq_eqb_true; reflexivity). ring.
  - replace (gq_cj gq_z) with gq_z by (apply gq_eqb_true; reflexivity). ring. Qed.

(** two-site operators with different numbers everywhere, on the state of CorrExamples *)
Definition qP := ramp 1 (-1) [2; 2; 2; 2].
Definition qP' : tensor gq := tbuild [2; 2; 2; 2] (fun ix => match ix with [k; l; i; j] => entry gq_z qP [i; j; k; l] | _ => gq_z end).
Lemma tr_qP : is_transpose2 qP qP'.
Proof. split; [reflexivity|]. split; [reflexivity|]. split; [now exists 2, 2, 2, 2|]. intros i j k l.
  destruct i as [|[|i]]; [| |destruct k as [|[|k]], l as [|[|l]]; reflexivity];
  (destruct j as [|[|j]]; [| |destruct k as [|[|k]], l as [|[|l]]; reflexivity]); destruct k as [|[|k]], l as [|[|l]]; reflexivity. Qed.
(** ** the two-row transfer matrix, physical dimension 1: twice the identity on both columns *)
Definition vA := gones [1; 1; 1; 1; 1].
Definition v2 : tensor gq := ints [1; 1; 1; 1] [(2, 0)]%Z.
Definition vst := gst vA.
Definition venv := genv pC pT.
Definition svd_2 : tensor gq -> res (tensor gq * list gq * tensor gq) := fun _ => Ok (gones [1; 1], [gq_int 2 0], gones [1; 1]).
Lemma same_svd svd : svd (ints [1; 1] [(2, 0)%Z]) = Ok (gones [1; 1], [gq_int 2 0], gones [1; 1]) ->
  gq_ corrf_2sOV2sOV_E2 gq_cj vst venv svd gq_div gmax (0, 0)%Z (1, 0)%Z v2 (fun _ => v2) 0%Z =
  gq_ corrf_2sOV2sOV_E2 gq_cj vst venv svd_2 gq_div gmax (0, 0)%Z (1, 0)%Z v2 (fun _ => v2) 0%Z.
Proof. intros H. assert (E : forall b, gq_ split_op gq_cj svd b v2 = gq_ split_op gq_cj svd_2 b v2).
  { intros b. unfold split_op. change (permute gq_z v2 [0; 2; 1; 3]) with (Ok (A := tensor gq) v2). cbn [bind].
    change (view v2 [size v2 0 ^ 2; size v2 0 ^ 2]) with (Ok (A := tensor gq) (ints [1; 1] [(2, 0)%Z])). cbn [bind]. rewrite H. reflexivity. }
  assert (T : forall c d X, gq_ apply_TM_2sO_2sChannel gq_cj vst venv svd c d X (Some v2) = gq_ apply_TM_2sO_2sChannel gq_cj vst venv svd_2 c d X (Some v2)).
  { intros c d X. unfold apply_TM_2sO_2sChannel. rewrite E. reflexivity. }
  unfold corrf_2sOV2sOV_E2. destruct (gq_ get_edge_2 vst venv (0, 0)%Z (cneg (1, 0)%Z)) as [X|?]; [|reflexivity]. cbn [bind]. rewrite T.
  destruct (gq_ apply_TM_2sO_2sChannel gq_cj vst venv svd_2 (0, 0)%Z (1, 0)%Z X (Some v2)) as [E1|?]; [|reflexivity]. cbn [bind].
  change (gq_ apply_TM_2sO_2sChannel gq_cj vst venv svd (0, 0)%Z (1, 0)%Z X None) with (gq_ apply_TM_2sO_2sChannel gq_cj vst venv svd_2 (0, 0)%Z (1, 0)%Z X None).
  destruct (gq_ apply_TM_2sO_2sChannel gq_cj vst venv svd_2 (0, 0)%Z (1, 0)%Z X None) as [E0|?]; [|reflexivity]. cbn [bind].
  change (Z.to_nat (0 + 1)) with 1. cbn [corrf2v_loop]. rewrite T. reflexivity. Qed.
Lemma rows_refuted : exists st e As Cs Ts D c O, sees st e As Cs Ts /\
  let norm := rows_norm gq_cj As Cs Ts c 2 in let net := rows_net gq_cj As Cs Ts c 2 O O in
  fits D norm /\ fits D net /\ gq_ (value D) norm = gq_o /\ gq_ (value D) net = gq_int 4 0 /\
  forall svd, svd (ints [1; 1] [(2, 0)%Z]) = Ok (gones [1; 1], [gq_int 2 0], gones [1; 1]) ->
  gq_ corrf_2sOV2sOV_E2 gq_cj st e svd gq_div gmax c (1, 0)%Z O (fun _ => O) 0%Z = Ok [gq_o].
Proof. exists vst, venv, (fun _ => vA), (fun _ => gpick dirs_C pC), (fun _ => gpick dirs_T pT), (fun _ => 1), (0, 0)%Z, v2.
  split; [exact (gsees _ _ _ _ _ _ _ _ _)|]. cbn zeta. split; [repeat constructor|]. split; [repeat constructor|].
  split; [apply gq_eqb_true; vm_compute; reflexivity|]. split; [apply gq_eqb_true; vm_compute; reflexivity|].
  intros svd Hsvd. rewrite (same_svd svd Hsvd). apply gives_ok. vm_compute. reflexivity. Qed.
(** the product state of CorrExamples *)
Lemma p_square : is_transpose2 qP qP' /\ tdims qP = [2; 2; 2; 2] /\ (forall k, pD k <> 0).
Proof. split; [exact tr_qP|]. split; [reflexivity|]. intros k. unfold pD. destruct (_ && _); discriminate. Qed.
Definition p_dimer n O1 O2 := dimer_net gq_cj (fun _ => pA) (fun _ => gpick dirs_C pC) (fun _ => gpick dirs_T pT) (None, None) Right (0, 0)%Z n O1 O2.
Lemma p_dimer_fits r : r <= 1 -> fits pD (p_norm (r + 4)) /\ fits pD (p_dimer (r + 4) qP' qP') /\ gq_ (value pD) (p_norm (r + 4)) <> gq_z.
Proof. intros H. destruct r as [|[|r]]; [| |lia]; (split; [repeat constructor|split; [repeat constructor|apply gq_eqb_false; vm_compute; reflexivity]]). Qed.
Lemma p_dimer_value : gq_eqb (gq_div (gq_ (value pD) (p_dimer 4 qP' qP')) (gq_ (value pD) (p_norm 4))) (gq_div (gq_ (value pD) (p_dimer 4 qP qP)) (gq_ (value pD) (p_norm 4))) = false.
Proof. vm_compute. reflexivity. Qed.
