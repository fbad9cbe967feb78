(** Factorisations of numbers satisfy the hypotheses of C84; the decomposition of (-2). *)
Set Warnings "-notation-overridden,-ambiguous-paths".
From mathcomp Require Import all_ssreflect all_algebra.
Import GRing.Theory Num.Theory.
From Verif Require Import DecompGrad DecompGradProofs Rsvd RsvdSpec RsvdProofs RsvdProps.
Set Implicit Arguments.
Unset Strict Implicit.
Unset Printing Implicit Defensive.
Open Scope ring_scope.

Section Examples.
Variable C : numClosedFieldType.
Definition total a b (A : 'M[C]_(a, b)) : C := \sum_i \sum_j A i j.
Definition phase (t : C) : C := if t == 0 then 1 else t / `|t|.
Definition qr1 a b (A : 'M[C]_(a, b)) : 'M[C]_(a, minn a b) * 'M[C]_(minn a b, b) := (const_mx (phase (total A)), const_mx `|total A|).
Definition svd1 a b (A : 'M[C]_(a, b)) : 'M[C]_(a, minn a b) * 'rV[C]_(minn a b) * 'M[C]_(b, minn a b) :=
  (const_mx (phase (total A)), const_mx `|total A|, const_mx 1).

Lemma phase_unit t : (phase t)^* * phase t = 1.
Proof.
rewrite /phase; case: eqP => [_|/eqP N]; first by rewrite conjC1 mulr1.
by rewrite mulrC -normCK normrM normfV normr_id divff ?expr1n // normr_eq0.
Qed.
Lemma phase_norm t : phase t * `|t| = t.
Proof.
rewrite /phase; case: eqP => [->|/eqP N]; first by rewrite normr0 mulr0.
by rewrite divfK // normr_eq0.
Qed.
Lemma total1 (A : 'M[C]_(1, 1)) : total A = A 0 0.
Proof. by rewrite /total !big_ord1. Qed.
Lemma flat a b (A B : 'M[C]_(a, b)) : (a == 0)%N || (b == 0)%N -> A = B.
Proof. case/orP=> /eqP E; subst; apply/matrixP => i j; [by case: i|by case: j]. Qed.
Lemma ortho_const (c : C) : c^* * c = 1 -> ortho (const_mx c : 'M[C]_(1, 1)).
Proof. move=> H; apply/matrixP => i j; by rewrite !ord1 mxE big_ord1 ctrE !mxE. Qed.
Lemma qr1_ok : qr_ok 1 qr1.
Proof.
move=> [|[|x]] [|[|y]] // A _ _; try by split; apply: flat; rewrite ?min0n ?minn0.
split; first by apply: ortho_const; apply: phase_unit.
apply/matrixP => i j; rewrite !ord1 /= mxE big_ord1 !mxE total1. by rewrite phase_norm.
Qed.
Lemma svd1_ok : svd_ok 1 svd1.
Proof.
move=> [|[|x]] [|[|y]] // A _ _; try by split; [apply: flat; rewrite ?min0n ?minn0|apply: flat; rewrite ?min0n ?minn0| |apply: flat]; rewrite // /descending ?min0n ?minn0; split=> [[]|[]].
split; [by apply: ortho_const; apply: phase_unit|by apply: ortho_const; rewrite conjC1 mulr1| |].
  by split=> [i|i j _] /=; rewrite !mxE.
apply/matrixP => i j; rewrite !ord1 /= mxE big_ord1 diag_cols ctrE !mxE conjC1 mulr1 total1. by rewrite phase_norm.
Qed.

Definition M2 : 'M[C]_(1, 1) := const_mx (- 2%:R).
Example ex_spans : spans_columns (M2 *m (1%:M : 'M[C]_(1, 1))) M2.
Proof. exists 1%:M. by rewrite !mulmx1. Qed.
Example ex_rsvd : triples M2 (rsvd qr1 svd1 M2 (1%:M : 'M[C]_(1, 1)) 1 3 2 1).
Proof. exact (proj2 (C84_rsvd_exact C 1 qr1 svd1 qr1_ok svd1_ok 1%N 1%N M2 isT isT 1%N 1%:M 1%N 3%N 2%N 1%N isT isT ex_spans)). Qed.
Lemma two (d : usv C 1 1) : rk d = 1%N -> triples M2 d -> forall j, ss d 0 j = 2%:R.
Proof.
case: d => r U S V /= E; subst r => -[/= O P [G _] A _] j; rewrite ord1.
have nrm (X : 'M[C]_(1, 1)) : ortho X -> `|X 0 0| = 1.
  move=> H; have := congr1 (fun B : 'M[C]_1 => B 0 0) H; rewrite mxE big_ord1 ctrE mxE eqxx mulr1n mulrC -normCK => K.
  by apply/eqP; rewrite -(@eqr_expn2 _ 2) ?normr_ge0 ?ler01 // K expr1n.
have := congr1 (fun B : 'M[C]_1 => `|B 0 0|) A.
rewrite diag_cols mxE big_ord1 !normrM (nrm _ O) (nrm _ P) mul1r mulr1 mxE normrN normr_nat => ->.
by rewrite ger0_norm.
Qed.
Example ex_value : forall j, ss (rsvd qr1 svd1 M2 (1%:M : 'M[C]_(1, 1)) 1 3 2 1) 0 j = 2%:R.
Proof. by apply: two; [|exact: ex_rsvd]. Qed.
Example ex_vnum : rk (rsvd qr1 svd1 M2 (const_mx 1 : 'M[C]_(1, 3)) 1 3 2 2) = 3%N.
Proof. by []. Qed.
End Examples.
