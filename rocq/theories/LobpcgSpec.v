(** Specification: the largest eigenvalues, and those of largest modulus. *)
Set Warnings "-notation-overridden,-ambiguous-paths".
From mathcomp Require Import all_ssreflect all_algebra.
Import GRing.Theory Num.Theory.
From Verif Require Import DecompGrad.
Set Implicit Arguments.
Unset Strict Implicit.
Unset Printing Implicit Defensive.
Open Scope ring_scope.

Section Spec.
Variable C : numClosedFieldType.
(** the eigenvalues of all eigenvectors orthogonal to those given are smaller, or have smaller modulus *)
Definition largest n k (A : 'M[C]_n) (D : 'rV[C]_k) (U : 'M[C]_(n, k)) : Prop :=
  forall (x : C) (v : 'M[C]_(n, 1)) (j : 'I_k), v != 0 -> x \is Num.real -> A *m v = x *: v -> ctr U *m v = 0 -> x <= D 0 j.
Definition leading_pairs n k (A : 'M[C]_n) (D : 'rV[C]_k) (U : 'M[C]_(n, k)) : Prop :=
  forall (x : C) (v : 'M[C]_(n, 1)) (j : 'I_k), v != 0 -> x \is Num.real -> A *m v = x *: v -> ctr U *m v = 0 -> `|x| <= `|D 0 j|.
End Spec.
