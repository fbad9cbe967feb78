(** Proofs for C68: curves of decompositions exist; where the returned gradient is not the derivative. *)
Set Warnings "-notation-overridden,-ambiguous-paths".
From mathcomp Require Import all_ssreflect all_algebra.
Import Order.TTheory GRing.Theory Num.Theory.
From Verif Require Import DecompGrad DecompGradSpec DecompGradProofs DecompGradProofs2 DecompGradProofs3.
Set Implicit Arguments.
Unset Strict Implicit.
Unset Printing Implicit Defensive.
Open Scope ring_scope.

Section P.
Variable C : numClosedFieldType.

(** through a diagonal matrix pass the curves given by any two antihermitian matrices *)
Lemma orth_1 k (W : 'M[C]_k) : ctr W = - W ->
  forall a b, \sum_i dmul (dconj ((1%:M : 'M[C]_k) i a, W i a)) ((1%:M : 'M[C]_k) i b, W i b) = dnat C (a == b) :> dual C.
Proof.
move=> HW a b. apply: injective_projections; rewrite ?dual_sum1 ?dual_sum2 /=.
- have := ctr1 C k => /matrixP E. transitivity ((ctr 1%:M *m 1%:M : 'M[C]_k) a b).
    rewrite mxE. apply: eq_bigr => i _. by rewrite ctrE.
  by rewrite ctr1 mulmx1 mxE.
- rewrite big_split /=.
  have ->: \sum_i ((1%:M : 'M[C]_k) i a)^* * W i b = (ctr 1%:M *m W) a b.
    rewrite mxE; apply: eq_bigr => i _; by rewrite ctrE.
  have ->: \sum_i (W i a)^* * (1%:M : 'M[C]_k) i b = (ctr W *m 1%:M) a b.
    rewrite [RHS]mxE; apply: eq_bigr => i _; by rewrite ctrE.
  by rewrite ctr1 mul1mx mulmx1 HW [(- W) a b]mxE subrr.
Qed.

Lemma curve_at_1 k (S dS : 'rV[C]_k.+1) (W Q : 'M[C]_k.+1) : ctr W = - W -> ctr Q = - Q -> all_real S -> all_real dS ->
  svd_curve (diag_mx S) (Pmat S dS W Q) 1%:M W S dS 1%:M Q.
Proof.
move=> HW HQ RS RdS. split.
- move=> i j. apply: injective_projections; rewrite ?dual_sum1 ?dual_sum2 /=.
  + transitivity ((1%:M *m diag_mx S *m ctr 1%:M) i j).
      by rewrite ctr1 mul1mx mulmx1.
    rewrite -colscaleE mxE. apply: eq_bigr => l _. by rewrite ctrE !mxE.
  + transitivity ((W *m diag_mx S *m ctr 1%:M + 1%:M *m diag_mx dS *m ctr 1%:M + 1%:M *m diag_mx S *m ctr Q) i j).
      by rewrite ctr1 !mul1mx !mulmx1 HQ mulmxN.
    rewrite -!colscaleE !mxE -!big_split /=. apply: eq_bigr => l _. rewrite !mxE mulrDl.
    by rewrite [RHS]addrC [X in X + _ = _]addrC.
- exact: orth_1.
- exact: orth_1.
- by move=> l; rewrite /dconj /= !realE.
Qed.

Lemma eig_at_1 k (D dD : 'rV[C]_k.+1) (W : 'M[C]_k.+1) : ctr W = - W -> all_real D -> all_real dD ->
  eig_curve (diag_mx D) (Pmat D dD W W) 1%:M W D dD.
Proof.
move=> HW RD RdD. have [p _ _ _] := curve_at_1 HW HW RD RdD. split=> //; first exact: orth_1.
by move=> l; rewrite /dconj /= !realE.
Qed.

Definition rot2 : 'M[C]_2 := \matrix_(i, j) ((i : nat)%:R - (j : nat)%:R).
Definition s21 : 'rV[C]_2 := \row_j (2%:R - (j : nat)%:R).
Lemma rot2_anti : ctr rot2 = - rot2.
Proof. by apply/matrixP => i j; rewrite ctrE !mxE rmorphB !rmorph_nat opprB. Qed.
Lemma rot2_real : all_real rot2.
Proof. by move=> i j; rewrite mxE rpredB ?realn. Qed.
Lemma s21_real : all_real s21.
Proof. by move=> i j; rewrite mxE rpredB ?realn. Qed.
Lemma zero_real a b : all_real (0 : 'M[C]_(a, b)).
Proof. by move=> i j; rewrite mxE real0. Qed.
Lemma one_real a : all_real (1%:M : 'M[C]_a).
Proof. by move=> i j; rewrite mxE realn. Qed.
Lemma s21_pos j : 0 < s21 0 j.
Proof. rewrite mxE. case: j => [[|[|//]] H] /=; by rewrite ?subr0 ?ltr0n // subr_gt0 ltr1n. Qed.
Lemma s21_dist i j : i != j -> s21 0 i != s21 0 j.
Proof.
move=> nij; rewrite !mxE. apply: contra nij => /eqP /addrI /oppr_inj /eqP. by rewrite eqr_nat.
Qed.
Lemma zero_anti a : ctr (0 : 'M[C]_a) = - 0.
Proof. by rewrite ctr0 oppr0. Qed.

Lemma rot2_norm : change rot2 rot2 = 2%:R.
Proof.
rewrite /change !big_ord_recl !big_ord0 !mxE /= !(subrr, subr0, sub0r, mulr0, addr0, add0r, raddf0).
rewrite rmorphN rmorph1 mulrNN mulr1. by rewrite (Creal_ReP _ (real1 C)) -mulr2n.
Qed.

Lemma change_scale a b (g d : 'M[C]_(a, b)) (c : C) : c \is Num.real -> change g (c *: d) = c * change g d.
Proof.
move=> Rc. rewrite !changeE -scalemxAr mxtraceZ !ReE2 /T2 rmorphM (realE Rc) -mulrDr mulrA. by [].
Qed.

(** regularization *)
Lemma wd_both (e : C) : Wd e s21 rot2 rot2 = (1 + e)^-1 *: rot2.
Proof.
apply/matrixP => i j. rewrite mxE [RHS]mxE. case: (altP (i =P j)) => [->|nij].
  by rewrite !mxE subrr mulr0.
rewrite subrr mulr0 mul0r addr0.
have ->: (rot2 i j + rot2 i j) = rot2 i j * 2%:R by rewrite mulr_natr mulr2n.
rewrite mulrA mulfK ?two_neq0 //. congr (_ * _).
rewrite /damping. have ->: (s21 0 j - s21 0 i) ^+ 2 = 1.
  rewrite !mxE. case: i j nij => [[|[|//]] Hi] [[|[|//]] Hj] //= _.
  - by rewrite subr0 addrAC subrr add0r sqrrN expr1n.
  - by rewrite subr0 opprB addrCA subrr addr0 expr1n.
by rewrite div1r.
Qed.

Lemma regularised_refuted (eps : C) : 0 < eps -> exists (A dA U dU gu V dV gv : 'M[C]_2) (S dS gs : 'rV[C]_2) (gA : 'M[C]_2),
  svd_curve A dA U dU S dS V dV /\ (forall j, 0 < S 0 j) /\ (forall i j, i != j -> S 0 i != S 0 j) /\
  all_real U /\ all_real V /\ all_real gu /\ all_real gs /\ all_real gv /\
  svd_backward false false U S V eps (Some gu) (Some gs) (Some gv) = Ret gA /\
  change gA dA <> change gu dU + change gs dS + change gv dV.
Proof.
move=> e0. have Re: eps \is Num.real by apply: gtr0_real.
have Hc := curve_at_1 rot2_anti rot2_anti s21_real (@zero_real 1 2).
have Hph: all_real (1%:M : 'M[C]_2) /\ all_real rot2 /\ all_real rot2 /\ all_real (1%:M : 'M[C]_2) /\ all_real rot2 /\ all_real (0 : 'M[C]_2).
  split; first exact: one_real. split; first exact: rot2_real. split; first exact: rot2_real.
  split; first exact: one_real. split; [exact: rot2_real | exact: zero_real].
have Hinv: false || (2 < 2)%N || (2 < 2)%N -> forall j, s21 0 j != 0 /\ s21 0 0 * eps <= `|s21 0 j| by [].
have [gA [E P]] := svd_regularised (cplx := false) false Hc Re (@zero_real 1 2) Hinv Hph.
exists (diag_mx s21), (Pmat s21 0 rot2 rot2), 1%:M, rot2, rot2, 1%:M, rot2, 0, s21, 0, 0, gA.
split; first exact: Hc. split; first exact: s21_pos. split; first exact: s21_dist.
split; first exact: one_real. split; first exact: one_real. split; first exact: rot2_real.
split; first exact: zero_real. split; first exact: zero_real. split; first exact: E.
rewrite P !change0l !addr0 damped_dU_is.
rewrite ctr1 !mul1mx wd_both addrCA subrr addr0.
have ->: s21 0 0 = 2%:R by rewrite mxE subr0.
have p: 0 < 1 + 2%:R * eps by rewrite addr_gt0 ?ltr01 // mulr_gt0 ?ltr0n.
rewrite change_scale; last by rewrite realV gtr0_real.
rewrite rot2_norm => /eqP. rewrite -{3}[2%:R]mul1r (inj_eq (mulIf (two_neq0 C))).
rewrite invr_eq1 -subr_eq0 addrAC subrr add0r mulf_eq0 (negPf (two_neq0 C)) /=. by rewrite (gt_eqF e0).
Qed.

(** a gradient of U alone *)
Lemma none_refuted : exists (A dA U dU gu V dV : 'M[C]_2) (S dS : 'rV[C]_2) (gA : 'M[C]_2),
  svd_curve A dA U dU S dS V dV /\ (forall j, 0 < S 0 j) /\ (forall i j, i != j -> S 0 i != S 0 j) /\
  all_real U /\ all_real V /\ all_real gu /\
  svd_backward false false U S V 0 (Some gu) None None = Ret gA /\ change gA dA <> change gu dU.
Proof.
have Hc := curve_at_1 rot2_anti rot2_anti s21_real (@zero_real 1 2).
exists (diag_mx s21), (Pmat s21 0 rot2 rot2), 1%:M, rot2, rot2, 1%:M, rot2, s21, 0, 0.
split; first exact: Hc. split; first exact: s21_pos. split; first exact: s21_dist.
split; first exact: one_real. split; first exact: one_real. split; first exact: rot2_real.
split; first by []. rewrite change0l rot2_norm => /esym /eqP. by rewrite (negPf (two_neq0 C)).
Qed.

(** the leading factors of a matrix of larger rank *)
Lemma truncated_refuted : exists (A dA U dU V dV : 'M[C]_2) (S dS : 'rV[C]_2) (gu gv : 'M[C]_(2, 1)) (gs : 'rV[C]_1) (gA : 'M[C]_2),
  svd_curve A dA U dU S dS V dV /\ (forall j, 0 < S 0 j) /\ (forall i j, i != j -> S 0 i != S 0 j) /\
  all_real U /\ all_real V /\ all_real gu /\ all_real gs /\ all_real gv /\
  svd_backward false false (col 0 U) (col 0 S) (col 0 V) 0 (Some gu) (Some gs) (Some gv) = Ret gA /\
  change gA dA <> change gu (col 0 dU) + change gs (col 0 dS) + change gv (col 0 dV).
Proof.
have Hc := curve_at_1 (zero_anti 2) rot2_anti s21_real (@zero_real 1 2).
pose gu : 'M[C]_(2, 1) := \col_i (i : nat)%:R.
have u1: ctr (col 0 (1%:M : 'M[C]_2)) *m gu = 0.
  apply/matrixP => i j. rewrite !mxE !big_ord_recl big_ord0 !ctrE !mxE /=. by rewrite mulr0 conjC0 mul0r !addr0.
have EF: forall e, mat_F e (col 0 s21 : 'rV[C]_1) = 0 by move=> e; apply/matrixP => i j; rewrite !mxE !ord1 eqxx.
have EG: forall e, mat_G e (col 0 s21 : 'rV[C]_1) = 0 by move=> e; apply/matrixP => i j; rewrite !mxE !ord1 eqxx.
have had0: forall (M : 'M[C]_1), had 0 M = 0 by move=> M; apply/matrixP => i j; rewrite !mxE mul0r.
have half0: forall a b, half (0 : 'M[C]_(a, b)) = 0 by move=> a b; rewrite halfE scaler0.
have E: svd_backward false false (col 0 (1%:M : 'M[C]_2)) (col 0 s21) (col 0 (1%:M : 'M[C]_2)) 0 (Some gu) (Some 0) (Some 0)
  = Ret (2%:R^-1 *: (gu *m ctr (col 0 (1%:M : 'M[C]_2)))).
  rewrite /svd_backward /= /u_term /v_term /= !EF !EG addr0 subr0 !had0 mulmx0 mul0mx !half0 !add0r.
  rewrite ctr0 mul0mx.
  have ->: rowscale (mat_sinv (col 0 s21 0 0 * 0) (col 0 s21)) (0 : 'M[C]_(1, 2)) = 0 by rewrite rowscaleE mulmx0.
  rewrite mulmx0 addr0. 
  have ->: colscale (col 0 (1%:M : 'M[C]_2)) 0 *m ctr (col 0 (1%:M : 'M[C]_2)) = 0.
    by rewrite colscaleE raddf0 mulmx0 mul0mx.
  rewrite addr0 mulr0. congr (Ret _).
  have ->: colscale gu (mat_sinv 0 (col 0 s21)) = 2%:R^-1 *: gu.
    apply/matrixP => i j. rewrite !mxE /safe_inverse_2 subr0 normr_lt0. by rewrite mulrC.
  rewrite -scalemxAr -scalemxAl mulmxDl mul1mx mulNmx mulNmx -mulmxA u1 mulmx0 oppr0 add0r. by [].
exists (diag_mx s21), (Pmat s21 0 0 rot2), 1%:M, 0, 1%:M, rot2, s21, 0, gu, 0, 0. eexists. split; first exact: Hc. split; first exact: s21_pos. split; first exact: s21_dist.
split; first exact: one_real. split; first exact: one_real.
split; first by move=> i j; rewrite mxE realn. split; first exact: zero_real. split; first exact: zero_real.
split; first exact: E.
rewrite !change0l !addr0. have ->: col 0 (0 : 'M[C]_2) = 0 by apply/matrixP => i j; rewrite !mxE.
rewrite change0r /change !big_ord_recl !big_ord0 !addr0.
have EA: forall i j, (2%:R^-1 *: (gu *m ctr (col 0 (1%:M : 'M[C]_2)))) i j = 2%:R^-1 * ((i : nat)%:R * (j == ord0)%:R).
  move=> i j. rewrite mxE. congr (_ * _). rewrite mxE big_ord1 ctrE !mxE rmorph_nat. by [].
rewrite !EA /= !(mul0r, mulr0, conjC0, raddf0, add0r, addr0).
have ->: Pmat s21 0 0 rot2 (lift ord0 ord0) ord0 = -1.
  rewrite P_off // !mxE /= !(mul0r, subr0, add0r). by rewrite addrAC subrr add0r mulr1.
rewrite !mulr1 half_conj mulrN1 raddfN /=.
rewrite (Creal_ReP _ _) ?realV ?realn // => /eqP. by rewrite oppr_eq0 invr_eq0 (negPf (two_neq0 C)).
Qed.
End P.
