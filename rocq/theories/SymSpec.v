(** Specification: eigenpairs of Hermitian matrices and orders. *)
Set Warnings "-notation-overridden,-ambiguous-paths".
From mathcomp Require Import all_ssreflect all_algebra all_fingroup.
Import GRing.Theory Num.Theory.
From Verif Require Import DecompGrad Rsvd RsvdSpec.
Set Implicit Arguments.
Unset Strict Implicit.
Unset Printing Implicit Defensive.
Open Scope ring_scope.

Section Spec.
Variable C : numClosedFieldType.
Definition hermitian n (A : 'M[C]_n) : Prop := ctr A = A.
(** k orthonormal eigenvectors with real eigenvalues *)
Definition eigenpairs n k (A : 'M[C]_n) (D : 'rV[C]_k) (U : 'M[C]_(n, k)) : Prop :=
  [/\ ortho U, forall j, D 0 j \is Num.real & A *m U = U *m diag_mx D].
(** torch.sort(x, descending=True) *)
Definition sorts k (order : 'rV[C]_k -> 'S_k) : Prop :=
  forall x : 'rV[C]_k, (forall j, x 0 j \is Num.real) -> forall i j : 'I_k, (i <= j)%N -> x 0 (order x j) <= x 0 (order x i).
(** pairs of largest modulus first *)
Definition by_modulus k (D : 'rV[C]_k) : Prop := forall i j : 'I_k, (i <= j)%N -> `|D 0 j| <= `|D 0 i|.
(** the same pairs in another order *)
Definition same_pairs n k (D D' : 'rV[C]_k) (U U' : 'M[C]_(n, k)) : Prop :=
  exists p : 'S_k, forall j, D' 0 j = D 0 (p j) /\ col j U' = col (p j) U.
End Spec.
