(** Proofs about decompositions of symmetric matrices. *)
Set Warnings "-notation-overridden,-ambiguous-paths".
From mathcomp Require Import all_ssreflect all_algebra all_fingroup.
Import GRing.Theory Num.Theory.
From Verif Require Import DecompGrad DecompGradProofs Rsvd RsvdSpec RsvdProofs Sym SymSpec.
Set Implicit Arguments.
Unset Strict Implicit.
Unset Printing Implicit Defensive.
Open Scope ring_scope.

Section Proofs.
Variable C : numClosedFieldType.
Variables (n k : nat).
Lemma pick_ortho (U : 'M[C]_(n, k)) (p : 'S_k) : ortho U -> ortho (pick_columns U p).
Proof.
move=> O; apply/matrixP => i j; have := congr1 (fun A : 'M[C]_k => A (p i) (p j)) O.
rewrite !mxE (inj_eq perm_inj) => <-; apply: eq_bigr => l _. by rewrite !ctrE !mxE.
Qed.
Lemma pick_pairs (A : 'M[C]_n) D U (p : 'S_k) : eigenpairs A D U -> eigenpairs A (pick_values D p) (pick_columns U p).
Proof.
case=> O R E; split; [exact: pick_ortho|by move=> j; rewrite mxE|].
apply/matrixP => i j; rewrite diag_cols !mxE -diag_cols -E !mxE; apply: eq_bigr => l _; congr (_ * _); by rewrite [LHS]mxE.
Qed.
Lemma pick_same (D : 'rV[C]_k) (U : 'M[C]_(n, k)) p : same_pairs D (pick_values D p) U (pick_columns U p).
Proof. by exists p => j; split; [rewrite mxE|apply/matrixP => i l; rewrite !mxE]. Qed.
Lemma real_square (A : 'M[C]_n) (D : 'rV[C]_n) U : eigenpairs A D U -> A = U *m diag_mx D *m ctr U.
Proof. case=> O _ E. by rewrite -E -mulmxA (mulmx1C O) mulmx1. Qed.

Variable eig : 'M[C]_n -> 'rV[C]_k * 'M[C]_(n, k).
Variable order : 'rV[C]_k -> 'S_k.
Hypothesis HO : sorts order.
Variable A : 'M[C]_n.
Hypothesis HE : eigenpairs A (eig A).1 (eig A).2.
Lemma abs_real (D : 'rV[C]_k) j : absD D 0 j \is Num.real.
Proof. by rewrite mxE normr_real. Qed.
Theorem symeig_ok : let r := symeig eig order A in
  [/\ eigenpairs A r.1 r.2, by_modulus r.1 & same_pairs (eig A).1 r.1 (eig A).2 r.2].
Proof.
rewrite /symeig /=; case: (eig A) HE => D U /= E; split.
- exact: pick_pairs.
- move=> i j L; rewrite !mxE; have := HO (abs_real D) L. by rewrite !mxE.
- exact: pick_same.
Qed.
Lemma sg_cases (x : C) : x \is Num.real -> x * Num.sg x = `|x| /\ Num.sg x * `|x| = x /\ Num.sg x * Num.sg x = (x != 0)%:R /\ (Num.sg x)^* = Num.sg x.
Proof.
move=> R; rewrite /Num.sg; case: eqP => [->|/eqP N] /=; first by rewrite mulr0 normr0 mul0r conjC0.
case: ifP => P.
  by rewrite !mulrN1 !mulN1r ltr0_norm // !opprK rmorphN conjC1.
have Q : 0 < x by rewrite real_ltNge ?real0 // Order.POrderTheory.le_eqVlt (negPf N) P.
by rewrite !mulr1 mul1r gtr0_norm // conjC1.
Qed.
Theorem svdsymeig_ok : hermitian A -> let d := svdsymeig eig order A in
  [/\ rk d = k, ortho (uu d), descending (ss d), A *m vv d = uu d *m diag_mx (ss d) & ctr A *m uu d = vv d *m diag_mx (ss d)]
  /\ ((forall j, (eig A).1 0 j != 0) <-> ortho (vv d)).
Proof.
move=> H; rewrite /svdsymeig; case: (eig A) HE => D U /= E0.
set p := order (absD D).
have [O R E] := pick_pairs p E0; case: (E0) => _ R0 _.
have S0 j : pick_values (absD D) p 0 j = `|pick_values D p 0 j| by rewrite !mxE.
set g : 'rV[C]_k := \row_j Num.sg _.
have G j : g 0 j = Num.sg (pick_values D p 0 j) by rewrite mxE.
split.
  split=> //.
  - split=> [j|i j L]; first by rewrite S0.
    by rewrite !mxE; have := HO (abs_real D) L; rewrite !mxE.
  - rewrite mulmxA E -mulmxA; congr (_ *m _); apply/matrixP => i j; rewrite diag_cols [in RHS]mxE [in LHS]mxE.
    case: eqP => [->|_]; last by rewrite !mulr0n mul0r.
    by rewrite !mulr1n G S0; case: (sg_cases (R j)).
  - rewrite H E -mulmxA; congr (_ *m _); apply/matrixP => i j; rewrite diag_cols [in LHS]mxE [in RHS]mxE.
    case: eqP => [->|_]; last by rewrite !mulr0n mul0r.
    by rewrite !mulr1n G S0; case: (sg_cases (R j)) => _ [].
have V : ctr (pick_columns U p *m diag_mx g) *m (pick_columns U p *m diag_mx g) = diag_mx (\row_j (D 0 (p j) != 0)%:R).
  rewrite ctrM ctr_diag; last by move=> j; rewrite G; case: (sg_cases (R j)) => _ [_ []].
  rewrite -mulmxA (mulmxA (ctr _)) O mul1mx; apply/matrixP => i j; rewrite diag_cols !mxE.
  case: eqP => [->|_]; last by rewrite !mulr0n mul0r.
  by rewrite !mulr1n; have := R j; rewrite mxE => Rj; case: (sg_cases Rj) => _ [_ []].
rewrite /ortho V; split=> [N|W j].
  apply/matrixP => i j; rewrite !mxE N. by case: eqP.
have := congr1 (fun B : 'M[C]_k => B ((p^-1)%g j) ((p^-1)%g j)) W.
rewrite !mxE eqxx permKV !mulr1n; case: eqP => //= _ /esym/eqP. by rewrite oner_eq0.
Qed.
End Proofs.

(** all the pairs of a square matrix rebuild it *)
Theorem whole_ok (C : numClosedFieldType) n (eig : 'M[C]_n -> 'rV[C]_n * 'M[C]_(n, n)) order (A : 'M[C]_n) : sorts order -> eigenpairs A (eig A).1 (eig A).2 -> hermitian A ->
  A = (symeig eig order A).2 *m diag_mx (symeig eig order A).1 *m ctr (symeig eig order A).2 /\
  let d := svdsymeig eig order A in A = uu d *m diag_mx (ss d) *m ctr (vv d).
Proof.
move=> HO HE H; split.
  by case: (symeig_ok HO HE) => E _ _; apply: real_square.
case: (svdsymeig_ok HO HE H) => -[_ O D E F] _; move: O D E F.
rewrite /svdsymeig; case: (eig A) => L U /= O D E F.
set S := pick_values (absD L) _ in D E F *; set U1 := pick_columns _ _ in O D E F *.
set g := (\row_j Num.sg _) in E F *; set V := U1 *m diag_mx g in E F *.
have : ctr (ctr A *m U1) = ctr (V *m diag_mx S) by rewrite F.
rewrite !ctrM ctrK (descending_conj D) => K.
by rewrite -mulmxA -K mulmxA (mulmx1C O) mul1mx.
Qed.

Theorem right_bad : forall C : numClosedFieldType, exists n (eig : 'M[C]_n -> 'rV[C]_n * 'M[C]_(n, n)) order (A : 'M[C]_n),
  [/\ sorts order, eigenpairs A (eig A).1 (eig A).2, hermitian A & ~ ortho (vv (svdsymeig eig order A))].
Proof.
move=> C; exists 1%N, (fun _ => (0, 1%:M)), (fun _ => 1%g), 0.
have S : sorts (fun _ : 'rV[C]_1 => (1%g : 'S_1)) by move=> x _ i j _; rewrite !ord1.
have E : eigenpairs (0 : 'M[C]_1) 0 1%:M.
  split; [by rewrite /ortho ctr1 mulmx1|by move=> j; rewrite mxE real0|].
  by rewrite mul0mx mul1mx; apply/matrixP => i j; rewrite !mxE mul0rn.
have H : hermitian (0 : 'M[C]_1) by rewrite /hermitian ctr0.
split=> // O; case: (svdsymeig_ok (eig := fun _ => (0, 1%:M)) S E H) => _ [_ /(_ O 0)].
by rewrite /= mxE eqxx.
Qed.
