(** Proofs for C68. *)
Set Warnings "-notation-overridden,-ambiguous-paths".
From mathcomp Require Import all_ssreflect all_algebra.
Import Order.TTheory GRing.Theory Num.Theory.
From Coq Require Import Ring.
From Verif Require Import DecompGrad DecompGradSpec.
Set Implicit Arguments.
Unset Strict Implicit.
Unset Printing Implicit Defensive.
Open Scope ring_scope.

(** scalar identities *)
Section Scalars.
Variables (T : Type) (O I : T) (add mul sub : T -> T -> T) (opp : T -> T).
Hypothesis Trth : ring_theory O I add mul sub opp eq.
Add Ring Tring : Trth.
Local Notation "x + y" := (add x y).
Local Notation "x - y" := (add x (opp y)).
Local Notation "x * y" := (mul x y).
Local Notation "- x" := (opp x).

Lemma sc_off (f g x xc y yc u uc v vc w wc p pc si sj h : T) :
  (((f + g) * (xc - y) * h + (f - g) * (uc - v) * h) * (w * sj - si * p)
   + ((f + g) * (x - yc) * h + (f - g) * (u - vc) * h) * (wc * sj - si * pc))
  + (((- f + g) * (yc - x) * h + (- f - g) * (vc - u) * h) * (- wc * si - sj * - pc)
     + ((- f + g) * (y - xc) * h + (- f - g) * (v - uc) * h) * (- w * si - sj * - p))
  =
  ((xc * (f * (sj - si) * (w + p) * h + g * (sj + si) * (w - p) * h)
    + uc * (f * (sj - si) * (w + p) * h - g * (sj + si) * (w - p) * h))
   + (x * (f * (sj - si) * (wc + pc) * h + g * (sj + si) * (wc - pc) * h)
    + u * (f * (sj - si) * (wc + pc) * h - g * (sj + si) * (wc - pc) * h)))
  + ((yc * (- f * (si - sj) * (- wc - pc) * h + g * (si + sj) * (- wc - - pc) * h)
    + vc * (- f * (si - sj) * (- wc - pc) * h - g * (si + sj) * (- wc - - pc) * h))
   + (y * (- f * (si - sj) * (- w - p) * h + g * (si + sj) * (- w - - p) * h)
    + v * (- f * (si - sj) * (- w - p) * h - g * (si + sj) * (- w - - p) * h))).
Proof. ring. Qed.

Lemma sc_diag (g l w q s d : T) :
  (g - l) * (w * s + d - s * q) + (g + l) * (- w * s + d - s * - q)
  = (- l * (w * s - s * q) + l * (- w * s - s * - q)) + (g * d + g * d).
Proof. ring. Qed.
Lemma sc_sum (a b c d g l x y s : T) : a + g + c + l = x + y + s ->
  a + b + g + (c + d) + l = b + x + s + (d + y).
Proof. move=> H. transitivity ((a + g + c + l) + b + d); first by ring. rewrite H; ring. Qed.
Lemma sc_phase (l s r w q x xc y yc : T) : l * s = r -> x - xc = r + r -> y - yc = - (r + r) ->
  - l * (w * s - s * q) + l * (- w * s - s * - q) = (xc * w + yc * q) + (x * - w + y * - q).
Proof.
move=> E1 E2 E3. transitivity (- ((l * s) + (l * s)) * (w - q)); first by ring.
transitivity (- (x - xc) * w - (y - yc) * q); last by ring. rewrite E1 E2 E3. ring.
Qed.
End Scalars.

Section ScalarsF.
Variable F : fieldType.
Lemma Frth : ring_theory (0 : F) 1 +%R *%R (fun x y => x + - y) -%R eq.
Proof.
split=> *; rewrite ?add0r ?mul1r ?addrA ?mulrA ?mulrDl ?subrr //; by [apply: addrC | apply: mulrC].
Qed.
Definition sc_offF := sc_off Frth.
Definition sc_diagF := sc_diag Frth.
Definition sc_phaseF := sc_phase Frth.
Definition sc_sumF := sc_sum Frth.
End ScalarsF.

Section P.
Variable C : numClosedFieldType.
Implicit Types (x y z : C).

Definition T2 x : C := x + x^*.
Lemma ReE2 x : 'Re x = T2 x / 2%:R.
Proof. exact: ReE. Qed.
Lemma T2D x y : T2 (x + y) = T2 x + T2 y.
Proof. by rewrite /T2 rmorphD addrACA. Qed.
Lemma two_neq0 : 2%:R != 0 :> C.
Proof. by rewrite pnatr_eq0. Qed.

Lemma dsym n (f g : 'I_n -> 'I_n -> C) :
  (forall i j, T2 (f i j) + T2 (f j i) = T2 (g i j) + T2 (g j i)) ->
  \sum_i \sum_j 'Re (f i j) = \sum_i \sum_j 'Re (g i j).
Proof.
move=> H.
have dbl: forall h : 'I_n -> 'I_n -> C, (\sum_i \sum_j 'Re (h i j)) * 2%:R = \sum_i \sum_j ('Re (h i j) + 'Re (h j i)).
  move=> h. rewrite mulr_natr mulr2n.
  transitivity (\sum_i \sum_j 'Re (h i j) + \sum_i \sum_j 'Re (h j i)).
    congr (_ + _). by rewrite exchange_big.
  rewrite -big_split /=. apply: eq_bigr => i _. by rewrite -big_split.
apply: (mulIf two_neq0). rewrite !dbl. apply: eq_bigr => i _; apply: eq_bigr => j _.
by rewrite !ReE2 -!mulrDl H.
Qed.

(** conjugate transpose *)
Lemma ctrE a b (A : 'M[C]_(a, b)) i j : ctr A i j = (A j i)^*.
Proof. by rewrite !mxE. Qed.
Lemma ctrK a b (A : 'M[C]_(a, b)) : ctr (ctr A) = A.
Proof. by apply/matrixP => i j; rewrite !ctrE conjCK. Qed.
Lemma ctrM a b c (A : 'M[C]_(a, b)) (B : 'M[C]_(b, c)) : ctr (A *m B) = ctr B *m ctr A.
Proof.
apply/matrixP => i j; rewrite ctrE !mxE rmorph_sum; apply: eq_bigr => l _.
by rewrite rmorphM mulrC !ctrE.
Qed.
Lemma ctrD a b (A B : 'M[C]_(a, b)) : ctr (A + B) = ctr A + ctr B.
Proof. by apply/matrixP => i j; rewrite ctrE !mxE rmorphD. Qed.
Lemma ctrN a b (A : 'M[C]_(a, b)) : ctr (- A) = - ctr A.
Proof. by apply/matrixP => i j; rewrite ctrE !mxE rmorphN. Qed.
Lemma ctr1 a : ctr (1%:M : 'M[C]_a) = 1%:M.
Proof. by apply/matrixP => i j; rewrite ctrE !mxE eq_sym; case: eqP => _; rewrite ?conjC1 ?conjC0. Qed.
Lemma ctr0 a b : ctr (0 : 'M[C]_(a, b)) = 0.
Proof. by apply/matrixP => i j; rewrite ctrE !mxE conjC0. Qed.
Lemma tr_ctr a (A : 'M[C]_a) : \tr (ctr A) = (\tr A)^*.
Proof. by rewrite /mxtrace rmorph_sum; apply: eq_bigr => i _; rewrite ctrE. Qed.
Lemma ctr_diag a (d : 'rV[C]_a) : (forall j, (d 0 j)^* = d 0 j) -> ctr (diag_mx d) = diag_mx d.
Proof.
move=> H; apply/matrixP => i j; rewrite ctrE !mxE eq_sym. case: eqP => [->|_]; by rewrite ?mulr1n ?H ?mulr0n ?conjC0.
Qed.
Lemma colscaleE a b (A : 'M[C]_(a, b)) q : colscale A q = A *m diag_mx q.
Proof.
apply/matrixP => i j; rewrite !mxE (bigD1 j) //= mxE eqxx mulr1n big1 ?addr0 // => l nl.
by rewrite mxE (negPf nl) mulr0n mulr0.
Qed.
Lemma rowscaleE a b (q : 'rV[C]_a) (A : 'M[C]_(a, b)) : rowscale q A = diag_mx q *m A.
Proof.
apply/matrixP => i j; rewrite !mxE (bigD1 i) //= mxE eqxx mulr1n big1 ?addr0 // => l nl.
by rewrite mxE eq_sym (negPf nl) mulr0n mul0r.
Qed.
Lemma halfE a b (A : 'M[C]_(a, b)) : half A = 2%:R^-1 *: A.
Proof. by apply/matrixP => i j; rewrite !mxE mulrC. Qed.
Lemma ctr_half a b (A : 'M[C]_(a, b)) : ctr (half A) = half (ctr A).
Proof. by apply/matrixP => i j; rewrite ctrE !mxE rmorphM fmorphV rmorph_nat. Qed.

Lemma changeE a b (g d : 'M[C]_(a, b)) : change g d = 'Re (\tr (ctr g *m d)).
Proof.
rewrite /change /mxtrace raddf_sum exchange_big /=; apply: eq_bigr => j _.
rewrite mxE raddf_sum; apply: eq_bigr => i _. by rewrite ctrE.
Qed.
Lemma Re_conj x : 'Re x^* = 'Re x.
Proof. by rewrite !ReE2 /T2 conjCK addrC. Qed.
Lemma Re_tr_ctr a (A : 'M[C]_a) : 'Re (\tr (ctr A)) = 'Re (\tr A).
Proof. by rewrite tr_ctr Re_conj. Qed.
Lemma changeDl a b (g h d : 'M[C]_(a, b)) : change (g + h) d = change g d + change h d.
Proof. by rewrite !changeE ctrD mulmxDl mxtraceD raddfD. Qed.
Lemma changeDr a b (g d e : 'M[C]_(a, b)) : change g (d + e) = change g d + change g e.
Proof. by rewrite !changeE mulmxDr mxtraceD raddfD. Qed.
Lemma change0r a b (g : 'M[C]_(a, b)) : change g 0 = 0.
Proof. by rewrite changeE mulmx0 mxtrace0 raddf0. Qed.
Lemma change0l a b (d : 'M[C]_(a, b)) : change 0 d = 0.
Proof. by rewrite changeE ctr0 mul0mx mxtrace0 raddf0. Qed.

(** moving factors *)
Lemma change_mul a b c d (U : 'M[C]_(a, b)) (K : 'M[C]_(b, c)) (V : 'M[C]_(d, c)) (X : 'M[C]_(a, d)) :
  change (U *m K *m ctr V) X = change K (ctr U *m X *m V).
Proof.
rewrite !changeE !ctrM ctrK. congr ('Re _).
by rewrite -!mulmxA mxtrace_mulC !mulmxA.
Qed.
Lemma change_mull a b d (U : 'M[C]_(a, b)) (K : 'M[C]_(b, d)) (X : 'M[C]_(a, d)) :
  change (U *m K) X = change K (ctr U *m X).
Proof. by rewrite !changeE !ctrM !mulmxA. Qed.
End P.
