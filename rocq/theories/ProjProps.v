(** Property C20: projectors from half-system matrices. *)
Set Warnings "-notation-overridden,-ambiguous-paths".
From mathcomp Require Import all_ssreflect all_algebra.
Import Order.TTheory GRing.Theory Num.Theory.
From Verif Require Import Proj ProjSpec ProjProofs.
Set Implicit Arguments.
Unset Strict Implicit.
Unset Printing Implicit Defensive.
Open Scope ring_scope.

(** the truncated factors of any singular value decomposition, of which the columns past
    position t were zeroed, satisfy the assumption of the theorems below *)
Theorem C20_truncated_factors : forall (C : numClosedFieldType) (m k : nat) (M U : 'M[C]_m) (S : 'rV[C]_m) (V : 'M[C]_m),
  is_svd M U S V -> forall (Hk : (k.+1 <= m)%N) (t : nat),
  trunc_svd M (pad_cols Hk t U) (pad_cols Hk t S) (pad_cols Hk t V) t.
Proof. exact: svd_truncates. Qed.
Print Assumptions C20_truncated_factors.

Theorem C20_biorthogonal_full : forall (C : numClosedFieldType) (n m k : nat) (reltol : C), 0 <= reltol ->
  forall (R Rt : 'M[C]_(n, m)) (U : 'M[C]_(m, k.+1)) (S : 'rV[C]_k.+1) (V : 'M[C]_(m, k.+1)) (t : nat),
  trunc_svd (R^T *m Rt) U S V t ->
  (projs_full reltol R Rt U S V).1^T *m (projs_full reltol R Rt U S V).2 = diag_mx (kept reltol S).
Proof. exact: biorth_full. Qed.
Print Assumptions C20_biorthogonal_full.

(** without projector_full_matrices exactly the kept columns remain and the product is the
    identity *)
Theorem C20_biorthogonal_nz : forall (C : numClosedFieldType) (n m k : nat) (reltol : C), 0 <= reltol ->
  forall (R Rt : 'M[C]_(n, m)) (U : 'M[C]_(m, k.+1)) (S : 'rV[C]_k.+1) (V : 'M[C]_(m, k.+1)) (t : nat),
  trunc_svd (R^T *m Rt) U S V t ->
  (projs_nz reltol R Rt U S V).1^T *m (projs_nz reltol R Rt U S V).2 = 1%:M.
Proof. exact: biorth_nz. Qed.
Print Assumptions C20_biorthogonal_nz.

Theorem C20_nz_width : forall (C : numClosedFieldType) (n m k : nat) (reltol : C)
  (R Rt : 'M[C]_(n, m)) (U : 'M[C]_(m, k.+1)) (S : 'rV[C]_k.+1) (V : 'M[C]_(m, k.+1)) (t : nat),
  trunc_svd (R^T *m Rt) U S V t -> forall j : 'I_k.+1, (reltol < S 0 j / S 0 0) = (j < nz_count reltol S)%N.
Proof. exact: above_count. Qed.
Print Assumptions C20_nz_width.

Theorem C20_same_projector : forall (C : numClosedFieldType) (n m k : nat) (reltol : C)
  (R Rt : 'M[C]_(n, m)) (U : 'M[C]_(m, k.+1)) (S : 'rV[C]_k.+1) (V : 'M[C]_(m, k.+1)) (t : nat),
  trunc_svd (R^T *m Rt) U S V t ->
  (projs_nz reltol R Rt U S V).2 *m (projs_nz reltol R Rt U S V).1^T =
  (projs_full reltol R Rt U S V).2 *m (projs_full reltol R Rt U S V).1^T.
Proof. exact: same_product. Qed.
Print Assumptions C20_same_projector.

(** the projector inserted between the halves gives the truncation to the kept values *)
Theorem C20_insertion_truncates : forall (C : numClosedFieldType) (n m k : nat) (reltol : C), 0 <= reltol ->
  forall (R Rt : 'M[C]_(n, m)) (U : 'M[C]_(m, k.+1)) (S : 'rV[C]_k.+1) (V : 'M[C]_(m, k.+1)) (t : nat),
  trunc_svd (R^T *m Rt) U S V t ->
  R^T *m (projs_full reltol R Rt U S V).2 *m (projs_full reltol R Rt U S V).1^T *m Rt =
  U *m diag_mx (kept_vals reltol S) *m (conjm V)^T.
Proof. exact: insert_full. Qed.
Print Assumptions C20_insertion_truncates.

Theorem C20_insertion_exact : forall (C : numClosedFieldType) (n m k : nat) (reltol : C)
  (R Rt : 'M[C]_(n, m)) (U : 'M[C]_m) (S : 'rV[C]_m) (V : 'M[C]_m) (Hk : (k.+1 <= m)%N) (t : nat),
  0 <= reltol -> is_svd (R^T *m Rt) U S V ->
  (forall j : 'I_m, ((k.+1 <= j) || (t <= j))%N -> S 0 j = 0) ->
  (forall j : 'I_k.+1, pad_cols Hk t S 0 j = 0 \/ reltol < pad_cols Hk t S 0 j / pad_cols Hk t S 0 0) ->
  R^T *m (projs_full reltol R Rt (pad_cols Hk t U) (pad_cols Hk t S) (pad_cols Hk t V)).2
      *m (projs_full reltol R Rt (pad_cols Hk t U) (pad_cols Hk t S) (pad_cols Hk t V)).1^T *m Rt = R^T *m Rt.
Proof. exact: main_exact. Qed.
Print Assumptions C20_insertion_exact.

Theorem C20_idempotent : forall (C : numClosedFieldType) (n m k : nat) (reltol : C), 0 <= reltol ->
  forall (R Rt : 'M[C]_(n, m)) (U : 'M[C]_(m, k.+1)) (S : 'rV[C]_k.+1) (V : 'M[C]_(m, k.+1)) (t : nat),
  trunc_svd (R^T *m Rt) U S V t ->
  let X := (projs_full reltol R Rt U S V).2 *m (projs_full reltol R Rt U S V).1^T in X *m X = X.
Proof. exact: idempotent_full. Qed.
Print Assumptions C20_idempotent.

(** R = 1, Rt = diag(4, 1), cutoff 1/2: one of two values is kept *)
Definition ex_row (C : numClosedFieldType) : 'rV[C]_2 := \row_j (if j == 0 then 4%:R else 1).

Example C20_example : forall C : numClosedFieldType,
  is_svd ((1%:M : 'M[C]_2)^T *m diag_mx (ex_row C)) 1%:M (ex_row C) 1%:M /\
  kept (2%:R^-1) (ex_row C) = \row_j (j == 0)%:R.
Proof.
move=> C. have c1 : conjm (1%:M : 'M[C]_2) = 1%:M.
  apply/matrixP => i j. rewrite !mxE. by case: (i == j); rewrite ?conjC1 ?conjC0.
split.
- split.
  + move=> i j Hij. rewrite !mxE. case: (boolP (j == 0)) => [/eqP Ej|Hj]; case: (boolP (i == 0)) => Hi //.
    * case/negP: Hi. move: Hij. by rewrite Ej leqn0 -(inj_eq val_inj).
    * by rewrite ler1n.
  + move=> j. rewrite mxE. by case: ifP => _; rewrite ?ler0n ?ler01.
  + by rewrite c1 trmx1 mul1mx.
  + by rewrite c1 trmx1 mul1mx.
  + by rewrite c1 trmx1 !mul1mx mulmx1.
- apply/rowP => j. rewrite !mxE eqxx. case: (boolP (j == 0)) => [_|Hj].
  + by rewrite divff ?pnatr_eq0 // invf_lt1 ?ltr0n // ltr1n.
  + rewrite mul1r ltf_pinv ?posrE ?ltr0n //. by rewrite ltr_nat.
Qed.
