(** Model of linalg/eig_lobpcg.py:5-53 [SYMLOBPCG.forward].
    [top]: torch.lobpcg with largest=True.  [None]: AssertionError; the quotient 0/0 is nan.  Arithmetic is exact. *)
Set Warnings "-notation-overridden,-ambiguous-paths".
From mathcomp Require Import all_ssreflect all_algebra.
Import GRing.Theory Num.Theory.
From Verif Require Import DecompGrad.
Set Implicit Arguments.
Unset Strict Implicit.
Unset Printing Implicit Defensive.
Open Scope ring_scope.

Section Lobpcg.
Variable C : numClosedFieldType.
Variables (n k : nat).
Variable top : 'M[C]_n -> 'rV[C]_k * 'M[C]_(n, k).
Definition norm2 (M : 'M[C]_n) : C := sqrtC (\sum_i \sum_j `|M i j| ^+ 2).
Definition maxabs (M : 'M[C]_n) : C := \big[Num.max/0]_i \big[Num.max/0]_j `|M i j|.
Definition symlobpcg (M : 'M[C]_n) : option ('rV[C]_k * 'M[C]_(n, k)) :=
  if (maxabs M != 0) && (norm2 (M - M^T) / maxabs M < (10%:R ^+ 8)^-1) then Some (top M) else None.
End Lobpcg.
