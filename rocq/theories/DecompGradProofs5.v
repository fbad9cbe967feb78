(** Proofs for C69: the signs of the singular vectors. *)
Set Warnings "-notation-overridden,-ambiguous-paths".
From mathcomp Require Import all_ssreflect all_algebra.
Import Order.TTheory GRing.Theory Num.Theory.
From Verif Require Import DecompGrad DecompGradSpec DecompGradProofs DecompGradProofs3.
Set Implicit Arguments.
Unset Strict Implicit.
Unset Printing Implicit Defensive.
Open Scope ring_scope.

Lemma argmax_size (l : seq nat) : l != [::] -> (argmax l < size l)%N.
Proof. elim: l => [//|x [|y t] IH] _ //. change ((if (nth 0%N (y :: t) (argmax (y :: t)) <= x)%N then 0%N else (argmax (y :: t)).+1) < size [:: x, y & t])%N. case: ifP => // _. rewrite ltnS. exact: IH. Qed.
Lemma argmax_max (l : seq nat) i : (i < size l)%N -> (nth 0%N l i <= nth 0%N l (argmax l))%N.
Proof.
elim: l i => [//|x [|y t] IH] i Hi.
  by case: i Hi.
change (argmax [:: x, y & t]) with (if (nth 0%N (y :: t) (argmax (y :: t)) <= x)%N then 0%N else (argmax (y :: t)).+1).
case: ifP => [le|/negbT]; case: i Hi => [|i] Hi //=.
- apply: leq_trans le. exact: IH.
- by rewrite -ltnNge => /ltnW.
- move=> _. exact: IH.
Qed.

Section P.
Variable C : numClosedFieldType.
Variable trunc : C -> nat.
Variables (m : nat).

Definition parg k (U : 'M[C]_(m.+1, k)) (j : 'I_k) : nat := argmax [seq amp trunc (U i j) | i <- enum 'I_m.+1].
Lemma parg_lt k (U : 'M[C]_(m.+1, k)) j : (parg U j < m.+1)%N.
Proof.
have := @argmax_size [seq amp trunc (U i j) | i <- enum 'I_m.+1]. rewrite size_map size_enum_ord. apply.
by rewrite -size_eq0 size_map size_enum_ord.
Qed.
Definition pord k (U : 'M[C]_(m.+1, k)) j : 'I_m.+1 := Ordinal (parg_lt U j).
Lemma pivotE k (U : 'M[C]_(m.+1, k)) j : pivot trunc U j = U (pord U j) j.
Proof.
rewrite /pivot -/(parg U j) (nth_map ord0) ?size_enum_ord ?parg_lt //. congr (U _ _). apply: val_inj => /=.
rewrite -[in LHS](_ : nat_of_ord (pord U j) = parg U j) //. by rewrite nth_ord_enum.
Qed.
Lemma pivot_max k (U : 'M[C]_(m.+1, k)) j i : (amp trunc (U i j) <= amp trunc (pivot trunc U j))%N.
Proof.
have nthE: forall l : 'I_m.+1, nth 0%N [seq amp trunc (U i j) | i <- enum 'I_m.+1] l = amp trunc (U l j).
  by move=> l; rewrite (nth_map ord0) ?size_enum_ord // nth_ord_enum.
have h: (i < size [seq amp trunc (U i j) | i <- enum 'I_m.+1])%N by rewrite size_map size_enum_ord.
have := argmax_max h. by rewrite -/(parg U j) nthE (nthE (pord U j)) pivotE.
Qed.

Section Iso.
Variables (k n : nat) (U : 'M[C]_(m.+1, k)) (V : 'M[C]_(n, k)) (L : 'rV[C]_k).
Hypothesis HL : forall j, `|L 0 j| = 1.

Lemma parg_rephased (U2 : 'M[C]_(m.+1, k)) : rephased L U U2 -> forall j, parg U2 j = parg U j.
Proof.
move=> H j. rewrite /parg. congr argmax. apply: eq_map => i. by rewrite /amp H normrM HL mulr1.
Qed.
Lemma pivot_rephased (U2 : 'M[C]_(m.+1, k)) : rephased L U U2 -> forall j, pivot trunc U2 j = pivot trunc U j * L 0 j.
Proof.
move=> H j. rewrite !pivotE H. congr (U _ _ * _). apply: val_inj => /=. exact: parg_rephased.
Qed.
Lemma L_conj j : L 0 j * (L 0 j)^* = 1.
Proof. by rewrite -normCK HL expr1n. Qed.
Lemma phase_rephased (U2 : 'M[C]_(m.+1, k)) : rephased L U U2 -> forall j, phase trunc U2 0 j = phase trunc U 0 j * L 0 j.
Proof. move=> H j. by rewrite !mxE (pivot_rephased H) normrM HL mulr1 mulrAC. Qed.

Lemma signs_unique (U2 : 'M[C]_(m.+1, k)) (V2 : 'M[C]_(n, k)) : rephased L U U2 -> rephased L V V2 ->
  fix_svd_signs trunc U2 V2 = fix_svd_signs trunc U V.
Proof.
move=> HU HV. rewrite /fix_svd_signs. congr pair; apply/matrixP => i j.
- rewrite mxE [RHS]mxE ![map_mx _ _ _ _]mxE (phase_rephased HU) HU rmorphM -mulrA (mulrCA (L 0 j)) L_conj mulr1. by [].
- rewrite mxE [RHS]mxE ![map_mx _ _ _ _]mxE (phase_rephased HU) HV rmorphM -mulrA (mulrCA (L 0 j)) L_conj mulr1. by [].
Qed.
End Iso.

Section Fix.
Variables (k n : nat) (A : 'M[C]_(m.+1, n)) (U : 'M[C]_(m.+1, k)) (S : 'rV[C]_k) (V : 'M[C]_(n, k)).
Hypothesis Hnz : forall j, pivot trunc U j != 0.
Let Lc : 'rV[C]_k := map_mx (fun x => x^*) (phase trunc U).

Lemma phase_norm j : `|phase trunc U 0 j| = 1.
Proof. rewrite mxE normrM normfV normr_id divff // normr_eq0. exact: Hnz. Qed.
Lemma Lc_norm j : `|Lc 0 j| = 1.
Proof. by rewrite mxE norm_conjC phase_norm. Qed.
Lemma fix_rephased : rephased Lc U (fix_svd_signs trunc U V).1 /\ rephased Lc V (fix_svd_signs trunc U V).2.
Proof. by split=> i j; rewrite mxE. Qed.

Lemma fix_svd : is_svd_of A U S V ->
  is_svd_of A (fix_svd_signs trunc U V).1 S (fix_svd_signs trunc U V).2.
Proof.
move=> [Hp HU HV]. have N j : Lc 0 j * (Lc 0 j)^* = 1 by rewrite -normCK Lc_norm expr1n.
have [r1 r2] := fix_rephased.
split=> [i j|a b|a b].
- rewrite Hp. apply: eq_bigr => l _. rewrite r1 r2 rmorphM.
  by rewrite (mulrAC _ (Lc 0 l)) -[RHS]mulrA [Lc 0 l * _]mulrCA N mulr1.
- rewrite (eq_bigr (fun i => ((Lc 0 a)^* * Lc 0 b) * ((U i a)^* * U i b))); last first.
    move=> i _. rewrite !r1 rmorphM mulrACA [X in _ = X]mulrC. by [].
  rewrite -big_distrr /= HU. case: eqP => [->|_]; by rewrite ?mulr1 ?mulr0 // mulrC N.
- rewrite (eq_bigr (fun i => ((Lc 0 a)^* * Lc 0 b) * ((V i a)^* * V i b))); last first.
    move=> i _. rewrite !r2 rmorphM mulrACA [X in _ = X]mulrC. by [].
  rewrite -big_distrr /= HV. case: eqP => [->|_]; by rewrite ?mulr1 ?mulr0 // mulrC N.
Qed.

Lemma fix_pivot j : pivot trunc (fix_svd_signs trunc U V).1 j = `|pivot trunc U j|.
Proof.
have [r1 _] := fix_rephased. rewrite (pivot_rephased Lc_norm r1) !mxE rmorphM fmorphV.
rewrite (realE (normr_real _)) mulrA -normCK expr2 mulfK // normr_eq0. exact: Hnz.
Qed.
End Fix.

(** orthonormal columns have a pivot *)
Hypothesis Ht : is_trunc trunc.
Lemma pivot_nz k (U : 'M[C]_(m.+1, k)) : (forall a b, \sum_i (U i a)^* * U i b = (a == b)%:R) ->
  m.+1%:R <= 2%:R ^+ 80 :> C -> forall j, pivot trunc U j != 0.
Proof.
move=> H Hm j. apply/negP => /eqP P0.
have two0 : 0 < 2%:R ^+ 40 :> C by rewrite exprn_gt0 ?ltr0n.
have amp0: amp trunc (pivot trunc U j) = 0%N.
  rewrite P0 /amp normr0 mul0r. have [h _] := Ht (lexx 0). apply/eqP. by rewrite -leqn0 -(ler_nat C).
have small: forall i, `|U i j| * 2%:R ^+ 40 < 1.
  move=> i. have a0: amp trunc (U i j) = 0%N by apply/eqP; rewrite -leqn0 -amp0 pivot_max.
  have [|_] := Ht (x := `|U i j| * 2%:R ^+ 40); first by rewrite mulr_ge0 ?normr_ge0 // ltW.
  by rewrite -/(amp trunc (U i j)) a0.
have sq: forall i, (U i j)^* * U i j < (2%:R ^+ 80)^-1.
  move=> i. rewrite mulrC -normCK -[_^-1]mul1r ltr_pdivl_mulr ?exprn_gt0 ?ltr0n //.
  have ->: (2%:R : C) ^+ 80 = (2%:R ^+ 40) ^+ 2 by rewrite -exprM.
  rewrite -exprMn. rewrite exprn_ilt1 //. by rewrite mulr_ge0 ?normr_ge0 // ltW.
have: \sum_i (U i j)^* * U i j < \sum_(i < m.+1) (2%:R ^+ 80)^-1.
  rewrite !big_ord_recl. apply: ltr_le_add => //. apply: ler_sum => i _. exact: ltW.
rewrite H eqxx sumr_const card_ord -[X in _ < X]mulr_natl ltr_pdivl_mulr ?exprn_gt0 ?ltr0n // mul1r.
move=> lt. have := lt_le_trans lt Hm. by rewrite ltxx.
Qed.
End P.

Lemma forward_shapes m n : forward_cols m n =
  if (m == n) || (m == 1%N) || (n == 1%N) then Ret (m, if n == 1%N then m else n) else Raise RuntimeError.
Proof.
rewrite /forward_cols /broadcast. case: (altP (n =P m)) => [->|nm].
  rewrite eqxx /=. by case: eqP.
have ->: (m == n) = false by rewrite eq_sym (negPf nm).
case: (altP (n =P 1%N)) => _ /=; first by rewrite orbT.
by rewrite orbF; case: ifP.
Qed.

Lemma rectangular :
  (forall m n, m <> n -> m <> 1%N -> n <> 1%N -> forward_cols m n = Raise RuntimeError) /\
  (forall m, forward_cols m 1 = Ret (m, m)).
Proof.
split=> [m n /eqP/negPf mn /eqP/negPf m1 /eqP/negPf n1|m].
- by rewrite forward_shapes mn n1 m1.
- by rewrite forward_shapes eqxx orbT.
Qed.

Lemma fix_pivot_positive (C : numClosedFieldType) (trunc : C -> nat) (m k n : nat)
  (A : 'M[C]_(m.+1, n)) (U : 'M[C]_(m.+1, k)) (S : 'rV[C]_k) (V : 'M[C]_(n, k)) :
  is_trunc trunc -> m.+1%:R <= 2%:R ^+ 80 :> C -> is_svd_of A U S V ->
  forall j, exists i, 0 < (fix_svd_signs trunc U V).1 i j /\
  forall l, (trunc (`|(fix_svd_signs trunc U V).1 l j| * 2%:R ^+ 40)%R <= trunc ((fix_svd_signs trunc U V).1 i j * 2%:R ^+ 40)%R)%N.
Proof.
move=> Ht Hm H j. have nz := pivot_nz Ht (so_U H) Hm.
set U' := (fix_svd_signs trunc U V).1. exists (pord trunc U' j).
have E: U' (pord trunc U' j) j = `|pivot trunc U j| by rewrite -pivotE /U' (fix_pivot _ nz).
rewrite E. split; first by rewrite normr_gt0.
move=> l. have := pivot_max trunc U' j l. rewrite /amp {2}/U' (fix_pivot _ nz) normr_id. by [].
Qed.
