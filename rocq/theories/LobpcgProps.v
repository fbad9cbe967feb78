(** Property C86: eigenpairs by LOBPCG. *)
Set Warnings "-notation-overridden,-ambiguous-paths".
From mathcomp Require Import all_ssreflect all_algebra.
Import GRing.Theory Num.Theory.
From Verif Require Import DecompGrad SymSpec LobpcgSpec Lobpcg LobpcgProofs.
Open Scope ring_scope.

(** symmetric matrices other than zero are accepted *)
Theorem C86_symmetric_partial : forall (C : numClosedFieldType) n k (top : 'M[C]_n -> 'rV[C]_k * 'M[C]_(n, k)) (A : 'M[C]_n),
  trmx A = A -> maxabs A != 0 -> symlobpcg top A = Some (top A).
Proof. exact symmetric_ok. Qed.
Print Assumptions C86_symmetric_partial.

(** a Hermitian matrix that is rejected as not symmetric *)
Theorem C86_hermitian_refuted : forall C : numClosedFieldType, exists n (A : 'M[C]_n),
  [/\ hermitian A, A != 0 & forall k (top : 'M[C]_n -> 'rV[C]_k * 'M[C]_(n, k)), symlobpcg top A = None].
Proof. exact complex_bad. Qed.
Print Assumptions C86_hermitian_refuted.

(** the largest eigenvalues are returned, which need not be the leading ones *)
Theorem C86_leading_refuted : forall C : numClosedFieldType, exists n k (top : 'M[C]_n -> 'rV[C]_k * 'M[C]_(n, k)) (A : 'M[C]_n),
  [/\ hermitian A, eigenpairs A (top A).1 (top A).2, largest A (top A).1 (top A).2, symlobpcg top A = Some (top A) & ~ leading_pairs A (top A).1 (top A).2].
Proof. exact order_bad. Qed.
Print Assumptions C86_leading_refuted.
