(** Specification: truncated singular value decompositions and what projectors should do. *)
Set Warnings "-notation-overridden,-ambiguous-paths".
From mathcomp Require Import all_ssreflect all_algebra.
Import GRing.Theory Num.Theory.
From Verif Require Import Proj.
Set Implicit Arguments.
Unset Strict Implicit.
Unset Printing Implicit Defensive.
Open Scope ring_scope.

Section Spec.
Variable C : numClosedFieldType.
Notation adj := (fun a b (A : 'M[C]_(a, b)) => (conjm A)^T).

(** [k.+1] leading singular triples of M, of which the first [t] are genuine and the others
    have been set to zero *)
Record trunc_svd (m k : nat) (M : 'M[C]_m) (U : 'M[C]_(m, k.+1)) (S : 'rV[C]_k.+1)
  (V : 'M[C]_(m, k.+1)) (t : nat) : Prop := {
  ts_desc : forall i j : 'I_k.+1, (i <= j)%N -> S 0 j <= S 0 i;
  ts_nneg : forall j, 0 <= S 0 j;
  ts_zero : forall j : 'I_k.+1, (t <= j)%N -> S 0 j = 0;
  ts_orth : forall i j : 'I_k.+1, (i < t)%N -> (j < t)%N -> ((conjm U)^T *m U) i j = (i == j)%:R;
  ts_right : M *m V = U *m diag_mx S;
  ts_left : (conjm U)^T *m M = diag_mx S *m (conjm V)^T }.

(** the singular values above the relative cutoff *)
Definition kept k (reltol : C) (S : 'rV[C]_k.+1) : 'rV[C]_k.+1 := \row_j (reltol < S 0 j / S 0 0)%R%:R.
Definition kept_vals k (reltol : C) (S : 'rV[C]_k.+1) : 'rV[C]_k.+1 :=
  \row_j (if reltol < S 0 j / S 0 0 then S 0 j else 0).

(** a singular value decomposition of a square matrix *)
Record is_svd (m : nat) (M : 'M[C]_m) (U : 'M[C]_m) (S : 'rV[C]_m) (V : 'M[C]_m) : Prop := {
  sv_desc : forall i j : 'I_m, (i <= j)%N -> S 0 j <= S 0 i;
  sv_nneg : forall j, 0 <= S 0 j;
  sv_U : (conjm U)^T *m U = 1%:M;
  sv_V : (conjm V)^T *m V = 1%:M;
  sv_M : M = U *m diag_mx S *m (conjm V)^T }.

(** its first [t] of [c] columns, the others zero *)
Definition pad_cols a m c (Hc : (c <= m)%N) (t : nat) (A : 'M[C]_(a, m)) : 'M[C]_(a, c) :=
  \matrix_(i, j) (if (j < t)%N then A i (widen_ord Hc j) else 0).
End Spec.
