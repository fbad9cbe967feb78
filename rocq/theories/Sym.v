(** Model of the forward functions of decompositions of symmetric matrices: linalg/eig_sym.py:14-34 [SYMEIG.forward],
    linalg/eig_arnoldi.py:11-50 [SYMARNOLDI.forward], linalg/svd_symeig.py:12-47 [SVDSYMEIG.forward], linalg/svd_arnoldi.py:15-63 [SVDSYMARNOLDI.forward].

    [eig]: torch.linalg.eigh, torch.symeig or scipy's eigsh with the number of pairs asked for, the values D and the vectors U.
    [order]: the permutation p of torch.sort(x, descending=True); the order of equal values is not specified.
    Arithmetic is exact.  Left out: devices, what is saved for the gradients. *)
Set Warnings "-notation-overridden,-ambiguous-paths".
From mathcomp Require Import all_ssreflect all_algebra all_fingroup.
Import GRing.Theory Num.Theory.
From Verif Require Import DecompGrad Rsvd.
Set Implicit Arguments.
Unset Strict Implicit.
Unset Printing Implicit Defensive.
Open Scope ring_scope.

Section Sym.
Variable C : numClosedFieldType.
Variables (n k : nat).
Variable eig : 'M[C]_n -> 'rV[C]_k * 'M[C]_(n, k).
Variable order : 'rV[C]_k -> 'S_k.

Definition absD (D : 'rV[C]_k) : 'rV[C]_k := \row_j `|D 0 j|.
Definition pick_values (D : 'rV[C]_k) (p : 'S_k) : 'rV[C]_k := \row_j D 0 (p j).
Definition pick_columns (U : 'M[C]_(n, k)) (p : 'S_k) : 'M[C]_(n, k) := \matrix_(i, j) U i (p j).

Definition symeig (A : 'M[C]_n) : 'rV[C]_k * 'M[C]_(n, k) :=
  let (D, U) := eig A in
  let p := order (absD D) in
  (pick_values D p, pick_columns U p).

Definition svdsymeig (A : 'M[C]_n) : usv C n n :=
  let (D, U) := eig A in
  let p := order (absD D) in
  let S := pick_values (absD D) p in
  let U1 := pick_columns U p in
  Usv U1 S (U1 *m diag_mx (\row_j Num.sg (pick_values D p 0 j))).
End Sym.
