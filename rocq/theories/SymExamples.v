(** The matrix diag(-2, 3): its eigenvalues in ascending order, as eigh returns them, and by modulus. *)
Set Warnings "-notation-overridden,-ambiguous-paths".
From mathcomp Require Import all_ssreflect all_algebra all_fingroup.
Import GRing.Theory Num.Theory.
From Verif Require Import DecompGrad DecompGradProofs Rsvd RsvdSpec RsvdProofs Sym SymSpec SymProofs SymProps.
Set Implicit Arguments.
Unset Strict Implicit.
Unset Printing Implicit Defensive.
Open Scope ring_scope.

Section Examples.
Variable C : numClosedFieldType.
Definition vals : 'rV[C]_2 := \row_j (if (j == 0 :> nat)%N then - 2%:R else 3%:R).
(** descending order of two numbers *)
Definition order2 (x : 'rV[C]_2) : 'S_2 := if x 0 0 < x 0 (@Ordinal 2 1 isT) then tperm 0 (@Ordinal 2 1 isT) else 1%g.
Lemma order2_ok : sorts order2.
Proof.
move=> x R i j L; rewrite /order2.
have E0 : forall a : 'I_2, (a == 0 :> nat)%N -> a = 0 by move=> a /eqP H; apply: val_inj.
have E1 : forall a : 'I_2, (a == 1 :> nat)%N -> a = @Ordinal 2 1 isT by move=> a /eqP H; apply: val_inj.
case: ifP => P; (have [A|A] : (i == 0 :> nat)%N \/ (i == 1 :> nat)%N by case: (i) => [[|[|z]] H]; [left|right|]);
 (have [B|B] : (j == 0 :> nat)%N \/ (j == 1 :> nat)%N by case: (j) => [[|[|z]] H]; [left|right|]);
 rewrite ?(E0 _ A) ?(E1 _ A) ?(E0 _ B) ?(E1 _ B) ?tpermL ?tpermR ?perm1 //.
- exact: Order.POrderTheory.ltW.
- by move: L; rewrite (eqP A) (eqP B).
- by rewrite real_leNgt // P.
- by move: L; rewrite (eqP A) (eqP B).
Qed.
Definition eig2 (A : 'M[C]_2) : 'rV[C]_2 * 'M[C]_(2, 2) := (vals, 1%:M).
Lemma eig2_ok : eigenpairs (diag_mx vals) (eig2 (diag_mx vals)).1 (eig2 (diag_mx vals)).2.
Proof.
split; [by rewrite /ortho ctr1 mulmx1| |by rewrite mulmx1 mul1mx].
by move=> j; rewrite mxE; case: ifP => _; rewrite ?realN realn.
Qed.
Example ex_order : (symeig eig2 order2 (diag_mx vals)).1 0 0 = 3%:R.
Proof.
rewrite /symeig /= mxE /order2 !mxE /=.
have -> : `|- 2%:R : C| < `|3%:R : C| by rewrite normrN !normr_nat ltr_nat.
by rewrite tpermL.
Qed.
Example ex_svd : ortho (vv (svdsymeig eig2 order2 (diag_mx vals))).
Proof.
case: (C85_svdsymeig_partial C 2 2 eig2 order2 order2_ok (diag_mx vals) eig2_ok) => [|_ H].
  by apply: ctr_diag => j; apply: conj_Creal; rewrite mxE; case: ifP => _; rewrite ?realN realn.
apply H => j; rewrite mxE; case: ifP => _; by rewrite ?oppr_eq0 pnatr_eq0.
Qed.
End Examples.
