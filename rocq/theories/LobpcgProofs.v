(** Proofs about LOBPCG. *)
Set Warnings "-notation-overridden,-ambiguous-paths".
From mathcomp Require Import all_ssreflect all_algebra.
Import GRing.Theory Num.Theory.
From Verif Require Import DecompGrad DecompGradProofs Rsvd RsvdSpec RsvdProofs SymSpec LobpcgSpec Lobpcg.
Set Implicit Arguments.
Unset Strict Implicit.
Unset Printing Implicit Defensive.
Open Scope ring_scope.

Section P.
Variable C : numClosedFieldType.
Definition Y : 'M[C]_2 := \matrix_(i, j) (if (i < j)%N then - 'i else if (j < i)%N then 'i else 0).
Lemma Y_herm : hermitian Y.
Proof.
apply/matrixP => i j; rewrite ctrE !mxE.
by case: ltngtP => _; rewrite ?rmorphN ?conjCi ?opprK ?conjC0.
Qed.
Lemma Y_max : maxabs Y = 1.
Proof.
rewrite /maxabs !big_ord_recl !big_ord0 !mxE /= normr0 normrN normCi.
have M01 : Num.max (0 : C) 1 = 1 by rewrite /Order.max ltr01.
have M10 : Num.max (1 : C) 0 = 1 by rewrite /Order.max ltr10.
have M11 : Num.max (1 : C) 1 = 1 by rewrite /Order.max; case: ifP.
have M00 : Num.max (0 : C) 0 = 0 by rewrite /Order.max; case: ifP.
by rewrite ?(M00, M01, M10, M11).
Qed.
Lemma Y_norm : norm2 (Y - Y^T) = sqrtC 8%:R.
Proof.
rewrite /norm2; congr sqrtC.
rewrite !big_ord_recl !big_ord0 !mxE /= !subrr normr0 expr0n /= opprK -opprD normrN -mulr2n normrMn normCi.
by rewrite -natrX !add0r !addr0 -natrD.
Qed.
Lemma no_small : (sqrtC 8%:R / 1 < (10%:R ^+ 8)^-1 :> C) = false.
Proof.
apply/negP => H.
have a : 1 <= sqrtC 8%:R :> C by rewrite -[X in X <= _]sqrtC1 ler_sqrtC ?ler1n // ?nnegrE ?ler0n ?ler01.
have b : (10%:R ^+ 8)^-1 <= 1 :> C by rewrite invf_le1 ?exprn_gt0 ?ltr0n // exprn_ege1 // ler1n.
have c := Order.POrderTheory.lt_le_trans H b; rewrite divr1 in c.
have := Order.POrderTheory.le_lt_trans a c. by rewrite Order.POrderTheory.ltxx.
Qed.
Theorem complex_bad : exists n (A : 'M[C]_n), [/\ hermitian A, A != 0 & forall k (top : 'M[C]_n -> 'rV[C]_k * 'M[C]_(n, k)), symlobpcg top A = None].
Proof.
exists 2%N, Y; split; first exact: Y_herm.
  apply/eqP => E; have := congr1 (fun B : 'M[C]_2 => B 0 (@Ordinal 2 1 isT)) E; rewrite !mxE /= => /eqP.
  by rewrite oppr_eq0 (negPf (neq0Ci _)).
by move=> k top; rewrite /symlobpcg Y_max Y_norm no_small andbF.
Qed.
Theorem symmetric_ok n k (top : 'M[C]_n -> 'rV[C]_k * 'M[C]_(n, k)) (A : 'M[C]_n) : A^T = A -> maxabs A != 0 -> symlobpcg top A = Some (top A).
Proof.
move=> S N; rewrite /symlobpcg N S subrr /norm2.
have -> : \sum_(i < n) \sum_(j < n) `|(0 : 'M[C]_n) i j| ^+ 2 = 0.
  by rewrite big1 // => i _; rewrite big1 // => j _; rewrite mxE normr0 expr0n.
by rewrite sqrtC0 mul0r invr_gt0 exprn_gt0 // ltr0n.
Qed.
(** diag(-2, 1) and its largest eigenvalue 1 *)
Definition Dm : 'rV[C]_2 := \row_j (if (j == 0 :> nat)%N then - 2%:R else 1).
Definition topm (A : 'M[C]_2) : 'rV[C]_1 * 'M[C]_(2, 1) := (const_mx 1, \matrix_(i, j) (i == 1 :> nat)%N%:R).
Lemma Dm_max : maxabs (diag_mx Dm) != 0.
Proof.
rewrite /maxabs !big_ord_recl !big_ord0 !mxE /= !mulr0n !mulr1n normr0 normrN normr1 normr_nat.
have M20 : Num.max (2%:R : C) 0 = 2%:R by rewrite /Order.max ltrn0.
have M01 : Num.max (0 : C) 1 = 1 by rewrite /Order.max ltr01.
have M10 : Num.max (1 : C) 0 = 1 by rewrite /Order.max ltr10.
have M00 : Num.max (0 : C) 0 = 0 by rewrite /Order.max; case: ifP.
have M21 : Num.max (2%:R : C) 1 = 2%:R by rewrite /Order.max ltrn1.
by rewrite ?(M00, M01, M10, M20, M21) pnatr_eq0.
Qed.
Lemma Dm_top : eigenpairs (diag_mx Dm) (topm (diag_mx Dm)).1 (topm (diag_mx Dm)).2.
Proof.
split.
- by apply/matrixP => i j; rewrite !ord1 mxE !big_ord_recl big_ord0 !ctrE !mxE /= conjC0 conjC1 mul0r mul1r add0r addr0.
- by move=> j; rewrite mxE real1.
- apply/matrixP => i j; rewrite diag_cols mul_diag_mx !mxE mulr1.
  by case: i => [[|[|z]] Hz] //=; rewrite ?mulr0 ?mulr1.
Qed.
Lemma Dm_largest : largest (diag_mx Dm) (topm (diag_mx Dm)).1 (topm (diag_mx Dm)).2.
Proof.
move=> x v j N R E O; rewrite mxE.
have V1 : v (@Ordinal 2 1 isT) 0 = 0.
  have := congr1 (fun B : 'M[C]_1 => B 0 0) O.
  rewrite mxE !big_ord_recl big_ord0 !ctrE !mxE /= conjC0 conjC1 mul0r mul1r add0r addr0 => <-.
  by congr (v _ _); apply: val_inj.
have V0 : v 0 0 != 0.
  apply: contraNN N => /eqP Z; apply/eqP/matrixP => i l; rewrite !ord1 mxE.
  case: i => [[|[|z]] Hz] //; [rewrite -[RHS]Z|rewrite -[RHS]V1]; by congr (v _ _); apply: val_inj.
have := congr1 (fun B : 'M[C]_(2, 1) => B 0 0) E; rewrite mul_diag_mx !mxE /= => H.
have -> : x = - 2%:R by apply: (mulIf V0).
by apply: (Order.POrderTheory.le_trans (y := 0)); rewrite ?ler01 // oppr_le0 ler0n.
Qed.
Lemma Dm_not_leading : ~ leading_pairs (diag_mx Dm) (topm (diag_mx Dm)).1 (topm (diag_mx Dm)).2.
Proof.
move=> H; have := H (- 2%:R) (\matrix_(i, j) (i == 0 :> nat)%N%:R) 0.
rewrite mxE normrN normr_nat normr1 => K.
suff : (2%:R <= 1 :> C) by rewrite lern1.
apply: K.
- by apply/eqP => Z; have /eqP := congr1 (fun B : 'M[C]_(2, 1) => B 0 0) Z; rewrite !mxE /= oner_eq0.
- by rewrite realN realn.
- apply/matrixP => i j; rewrite mul_diag_mx !mxE. by case: i => [[|[|z]] Hz] //=; rewrite ?mulr0.
- by apply/matrixP => i j; rewrite !ord1 mxE !big_ord_recl big_ord0 !ctrE !mxE /= conjC0 conjC1 mul0r mulr0 !addr0.
Qed.
Theorem order_bad : exists n k (top : 'M[C]_n -> 'rV[C]_k * 'M[C]_(n, k)) (A : 'M[C]_n),
  [/\ hermitian A, eigenpairs A (top A).1 (top A).2, largest A (top A).1 (top A).2, symlobpcg top A = Some (top A) & ~ leading_pairs A (top A).1 (top A).2].
Proof.
exists 2%N, 1%N, topm, (diag_mx Dm); split.
- apply: ctr_diag => j; apply: conj_Creal; rewrite mxE; case: ifP => _; by rewrite ?realN ?realn ?real1.
- exact: Dm_top.
- exact: Dm_largest.
- by apply: symmetric_ok; [exact: tr_diag_mx|exact: Dm_max].
- exact: Dm_not_leading.
Qed.
End P.
