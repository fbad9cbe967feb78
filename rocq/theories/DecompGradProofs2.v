(** Proofs for C68: the gradient of the singular value decomposition. *)
Set Warnings "-notation-overridden,-ambiguous-paths".
From mathcomp Require Import all_ssreflect all_algebra.
Import Order.TTheory GRing.Theory Num.Theory.
From Verif Require Import DecompGrad DecompGradSpec DecompGradProofs.
Set Implicit Arguments.
Unset Strict Implicit.
Unset Printing Implicit Defensive.
Open Scope ring_scope.

Section P.
Variable C : numClosedFieldType.

(** first-order parts of sums *)
Lemma dual_sum1 (I : finType) (f : I -> dual C) : (\sum_l f l).1 = \sum_l (f l).1.
Proof. exact: (big_morph (fun x : dual C => x.1) (fun x y => erefl) erefl). Qed.
Lemma dual_sum2 (I : finType) (f : I -> dual C) : (\sum_l f l).2 = \sum_l (f l).2.
Proof. exact: (big_morph (fun x : dual C => x.2) (fun x y => erefl) erefl). Qed.

Lemma orth_of m k (U dU : 'M[C]_(m, k)) :
  (forall a b, \sum_i dmul (dconj (U i a, dU i a)) (U i b, dU i b) = dnat C (a == b) :> dual C) ->
  ctr U *m U = 1%:M /\ ctr (ctr U *m dU) = - (ctr U *m dU).
Proof.
move=> H; split.
- apply/matrixP => a b. move: (congr1 (fun x : dual C => x.1) (H a b)); rewrite dual_sum1 /= => E.
  rewrite !mxE -E. apply: eq_bigr => i _. by rewrite ctrE.
- apply/matrixP => a b. move: (congr1 (fun x : dual C => x.2) (H a b)); rewrite dual_sum2 /= => E.
  rewrite ctrM ctrK. apply/eqP; rewrite -subr_eq0 !mxE opprK addrC -big_split /= -[X in _ == X]E.
  apply/eqP; apply: eq_bigr => i _. by rewrite !ctrE.
Qed.

Lemma dA_of m n k (A dA : 'M[C]_(m, n)) (U dU : 'M[C]_(m, k)) (S dS : 'rV[C]_k) (V dV : 'M[C]_(n, k)) :
  (forall i j, (A i j, dA i j) = \sum_l dmul (dmul (U i l, dU i l) (S 0 l, dS 0 l)) (dconj (V j l, dV j l)) :> dual C) ->
  A = U *m diag_mx S *m ctr V /\
  dA = dU *m diag_mx S *m ctr V + U *m diag_mx dS *m ctr V + U *m diag_mx S *m ctr dV.
Proof.
move=> H; split; apply/matrixP => i j.
- move: (congr1 (fun x : dual C => x.1) (H i j)); rewrite dual_sum1 /= => ->.
  rewrite -colscaleE !mxE. apply: eq_bigr => l _. by rewrite !mxE.
- move: (congr1 (fun x : dual C => x.2) (H i j)); rewrite dual_sum2 /= => ->.
  rewrite -!colscaleE !mxE -!big_split /=. apply: eq_bigr => l _. rewrite !mxE mulrDl.
  by rewrite addrC [X in X + _ = _]addrC.
Qed.

Lemma isom_le m k (U : 'M[C]_(m, k)) : ctr U *m U = 1%:M -> (k <= m)%N.
Proof.
move=> H. have := mxrank1 C k. rewrite -H => <-. exact: leq_trans (mxrankM_maxr _ _) (rank_leq_row _).
Qed.
Lemma isom_square m k (U : 'M[C]_(m, k)) : ctr U *m U = 1%:M -> (k < m)%N = false -> U *m ctr U = 1%:M.
Proof.
move=> H lt. have le := isom_le H. have E: k = m by apply/eqP; rewrite eqn_leq le leqNgt lt.
subst k. exact: mulmx1C.
Qed.

(** the k x k part *)
Section Core.
Variables (k : nat) (e : C) (S dS gs : 'rV[C]_k.+1) (X Y W Q L : 'M[C]_k.+1).
Hypothesis He : e^* = e.
Hypothesis HS : forall j, (S 0 j)^* = S 0 j.
Hypothesis HdS : forall j, (dS 0 j)^* = dS 0 j.
Hypothesis Hgs : forall j, (gs 0 j)^* = gs 0 j.
Hypothesis HW : ctr W = - W.
Hypothesis HQ : ctr Q = - Q.

Lemma F_sym i j : mat_F e S j i = - mat_F e S i j.
Proof.
rewrite !mxE eq_sym. case: eqP => _; first by rewrite oppr0.
by rewrite /safe_inverse -(opprB (S 0 j)) sqrrN mulNr.
Qed.
Lemma F_conj i j : (mat_F e S i j)^* = mat_F e S i j.
Proof.
rewrite !mxE. case: eqP => _; first by rewrite conjC0.
by rewrite /safe_inverse rmorphM fmorphV rmorphB rmorphD rmorphX rmorphB He !HS.
Qed.
Lemma G_sym i j : mat_G e S j i = mat_G e S i j.
Proof. rewrite !mxE eq_sym. case: eqP => _ //. by rewrite /safe_inverse (addrC (S 0 i)). Qed.
Lemma G_conj i j : (mat_G e S i j)^* = mat_G e S i j.
Proof.
rewrite !mxE. case: eqP => _; first by rewrite conjC0.
by rewrite /safe_inverse rmorphM fmorphV !rmorphD rmorphX rmorphD He !HS.
Qed.

Lemma antiE (M : 'M[C]_k.+1) : ctr M = - M -> forall i j, M j i = - (M i j)^*.
Proof. move=> H i j. move/matrixP: H => /(_ j i). rewrite ctrE !mxE => ->. by rewrite opprK. Qed.

Definition Kmat : 'M[C]_k.+1 :=
  half (had (mat_F e S + mat_G e S) (X - ctr X)) + half (had (mat_F e S - mat_G e S) (Y - ctr Y)) + diag_mx gs + L.
Definition Pmat : 'M[C]_k.+1 := W *m diag_mx S + diag_mx dS - diag_mx S *m Q.

Definition Wd : 'M[C]_k.+1 := \matrix_(a, b) if a == b then W a b else
  damping e (S 0 b - S 0 a) * (W a b + Q a b) / 2%:R + damping e (S 0 b + S 0 a) * (W a b - Q a b) / 2%:R.
Definition Qd : 'M[C]_k.+1 := \matrix_(a, b) if a == b then Q a b else
  damping e (S 0 b - S 0 a) * (W a b + Q a b) / 2%:R - damping e (S 0 b + S 0 a) * (W a b - Q a b) / 2%:R.

Hypothesis HLoff : forall i j, i != j -> L i j = 0.
Hypothesis HLdiag : forall i,
  T2 ((L i i)^* * (W i i * S 0 i - S 0 i * Q i i)) = T2 ((X i i)^* * W i i + (Y i i)^* * Q i i).
Hypothesis HLim : forall i, (L i i)^* = - L i i.

Lemma P_off i j : i != j -> Pmat i j = W i j * S 0 j - S 0 i * Q i j.
Proof.
move=> nij. rewrite /Pmat -colscaleE -rowscaleE !mxE (negPf nij) mulr0n addr0. by [].
Qed.
Lemma P_diag i : Pmat i i = W i i * S 0 i + dS 0 i - S 0 i * Q i i.
Proof. by rewrite /Pmat -colscaleE -rowscaleE !mxE eqxx mulr1n. Qed.
Lemma K_off i j : i != j -> Kmat i j =
  (mat_F e S i j + mat_G e S i j) * (X i j - (X j i)^*) * 2%:R^-1 + (mat_F e S i j - mat_G e S i j) * (Y i j - (Y j i)^*) * 2%:R^-1.
Proof. move=> nij. rewrite /Kmat !mxE (HLoff nij) (negPf nij) mulr0n !addr0. by []. Qed.
Lemma K_diag i : Kmat i i = gs 0 i + L i i.
Proof. by rewrite /Kmat !mxE eqxx mulr1n !addr0 subrr !mul0r !add0r. Qed.

Lemma damp_F i j : i != j -> damping e (S 0 j - S 0 i) = mat_F e S i j * (S 0 j - S 0 i).
Proof. move=> nij. by rewrite mxE (negPf nij) /damping /safe_inverse expr2 mulrAC. Qed.
Lemma damp_G i j : i != j -> damping e (S 0 j + S 0 i) = mat_G e S i j * (S 0 j + S 0 i).
Proof. move=> nij. by rewrite mxE (negPf nij) /damping /safe_inverse expr2 mulrAC. Qed.

Lemma Wd_off i j : i != j -> Wd i j =
  mat_F e S i j * (S 0 j - S 0 i) * (W i j + Q i j) / 2%:R + mat_G e S i j * (S 0 j + S 0 i) * (W i j - Q i j) / 2%:R.
Proof. move=> nij. by rewrite -(damp_F nij) -(damp_G nij) mxE (negPf nij). Qed.
Lemma Qd_off i j : i != j -> Qd i j =
  mat_F e S i j * (S 0 j - S 0 i) * (W i j + Q i j) / 2%:R - mat_G e S i j * (S 0 j + S 0 i) * (W i j - Q i j) / 2%:R.
Proof. move=> nij. by rewrite -(damp_F nij) -(damp_G nij) mxE (negPf nij). Qed.

Lemma half_conj : (2%:R^-1 : C)^* = 2%:R^-1.
Proof. by rewrite fmorphV rmorph_nat. Qed.

Lemma core : change Kmat Pmat = change X Wd + change Y Qd + change gs dS.
Proof.
have ->: change gs dS = \sum_i \sum_j 'Re (if i == j then (gs 0 i)^* * dS 0 i else 0).
  rewrite /change big_ord1. apply: eq_bigr => i _.
  rewrite (bigD1 i) //= eqxx big1 ?addr0 // => j; rewrite eq_sym => /negPf ->; exact: raddf0.
rewrite /change. rewrite -!big_split /=.
transitivity (\sum_i \sum_j 'Re ((X i j)^* * Wd i j + (Y i j)^* * Qd i j + (if i == j then (gs 0 i)^* * dS 0 i else 0))); last first.
  apply: eq_bigr => i _. rewrite -!big_split /=. apply: eq_bigr => j _. by rewrite !raddfD.
apply: dsym => i j.
case: (altP (i =P j)) => [->|nij].
- rewrite eqxx K_diag P_diag !mxE eqxx.
  suff E: T2 ((gs 0 j + L j j)^* * (W j j * S 0 j + dS 0 j - S 0 j * Q j j)) =
          T2 ((X j j)^* * W j j + (Y j j)^* * Q j j + (gs 0 j)^* * dS 0 j) by rewrite E.
  have Hg := Hgs j. have Hl := HLim j. have HD := HLdiag j.
  have w: (W j j)^* = - W j j by rewrite [in RHS](antiE HW j j) opprK.
  have q: (Q j j)^* = - Q j j by rewrite [in RHS](antiE HQ j j) opprK.
  rewrite T2D -HD /T2 !(rmorphM, rmorphD, rmorphN, conjCK) !(Hg, Hl, w, q, HS, HdS). exact: sc_diagF.
- have nji: j != i by rewrite eq_sym.
  rewrite (negPf nji) (K_off nij) (P_off nij) (K_off nji) (P_off nji) !addr0.
  rewrite (Wd_off nij) (Wd_off nji) (Qd_off nij) (Qd_off nji) (F_sym i j) (G_sym i j).
  rewrite (antiE HW i j) (antiE HQ i j).
  rewrite /T2 !(rmorphM, rmorphD, rmorphN, conjCK, half_conj, F_conj, G_conj, HS).
  exact: sc_offF.
Qed.
End Core.

Lemma change_mulr a b c (K : 'M[C]_(a, b)) (D : 'M[C]_(b, c)) (Y : 'M[C]_(a, c)) :
  change (K *m D) Y = change K (Y *m ctr D).
Proof. by rewrite !changeE ctrM -mulmxA mxtrace_mulC mulmxA. Qed.
Lemma change_ctr a b (g d : 'M[C]_(a, b)) : change (ctr g) (ctr d) = change g d.
Proof. by rewrite !changeE -ctrM Re_tr_ctr mxtrace_mulC. Qed.
Lemma change_move a b c (g : 'M[C]_(a, c)) (U : 'M[C]_(a, b)) (Z : 'M[C]_(b, c)) :
  change g (U *m Z) = change (ctr U *m g) Z.
Proof. by rewrite !changeE ctrM ctrK mulmxA. Qed.

Section Svd.
Variables (m n k : nat) (e : C).
Variables (dA : 'M[C]_(m, n)) (U dU gu : 'M[C]_(m, k.+1)) (S dS gs : 'rV[C]_k.+1) (V dV gv : 'M[C]_(n, k.+1)).
Hypothesis He : e^* = e.
Hypothesis HS : forall j, (S 0 j)^* = S 0 j.
Hypothesis HdS : forall j, (dS 0 j)^* = dS 0 j.
Hypothesis Hgs : forall j, (gs 0 j)^* = gs 0 j.
Hypothesis HU : ctr U *m U = 1%:M.
Hypothesis HV : ctr V *m V = 1%:M.
Hypothesis HdU : ctr (ctr U *m dU) = - (ctr U *m dU).
Hypothesis HdV : ctr (ctr V *m dV) = - (ctr V *m dV).
Hypothesis HdA : dA = dU *m diag_mx S *m ctr V + U *m diag_mx dS *m ctr V + U *m diag_mx S *m ctr dV.
Let W := ctr U *m dU.
Let Q := ctr V *m dV.
Let X := ctr U *m gu.
Let Y := ctr V *m gv.

Lemma P_is : ctr U *m dA *m V = Pmat S dS W Q.
Proof.
rewrite HdA !mulmxDr !mulmxDl /Pmat. congr (_ + _ + _).
- by rewrite -!mulmxA HV mulmx1 /W !mulmxA.
- by rewrite -!mulmxA HV mulmx1 !mulmxA HU mul1mx.
- have E: ctr dV *m V = - Q by rewrite /Q -HdV ctrM ctrK.
  by rewrite !mulmxA HU mul1mx -mulmxA E mulmxN /Q mulmxA.
Qed.

Lemma damped_dU_is : damped_dU e S U dU V dV = dU + U *m (Wd e S W Q - W).
Proof.
apply/matrixP => i b. rewrite mxE [in RHS]mxE. congr (_ + _). rewrite mxE [RHS](bigD1 b) //=.
rewrite !mxE eqxx subrr mulr0 add0r. apply: eq_bigr => a nab.
rewrite [X in _ = _ * X]mxE [X in _ = _ * (X + _)]mxE (negPf nab). congr (_ * _).
have rU: rot U dU a b = W a b by rewrite /rot /W mxE; apply: eq_bigr => l _; rewrite ctrE.
have rV: rot V dV a b = Q a b by rewrite /rot /Q mxE; apply: eq_bigr => l _; rewrite ctrE.
by rewrite /damped_both /damped_against rU rV [X in _ = _ + X]mxE.
Qed.
Lemma damped_dV_is : damped_dV e S U dU V dV = dV + V *m (Qd e S W Q - Q).
Proof.
apply/matrixP => i b. rewrite mxE [in RHS]mxE. congr (_ + _). rewrite mxE [RHS](bigD1 b) //=.
rewrite !mxE eqxx subrr mulr0 add0r. apply: eq_bigr => a nab.
rewrite [X in _ = _ * X]mxE [X in _ = _ * (X + _)]mxE (negPf nab). congr (_ * _).
have rU: rot U dU a b = W a b by rewrite /rot /W mxE; apply: eq_bigr => l _; rewrite ctrE.
have rV: rot V dV a b = Q a b by rewrite /rot /Q mxE; apply: eq_bigr => l _; rewrite ctrE.
by rewrite /damped_both /damped_against rU rV [X in _ = _ + X]mxE.
Qed.

Definition prU : 'M[C]_m := - U *m ctr U + 1%:M.
Definition prV : 'M[C]_n := - V *m ctr V + 1%:M.
Lemma prU_dU : prU *m dU = dU - U *m W.
Proof. by rewrite /prU mulmxDl mul1mx mulNmx mulNmx -mulmxA addrC. Qed.
Lemma prV_dV : prV *m dV = dV - V *m Q.
Proof. by rewrite /prV mulmxDl mul1mx mulNmx mulNmx -mulmxA addrC. Qed.
Lemma prU_U : prU *m U = 0.
Proof. by rewrite /prU mulmxDl mul1mx mulNmx mulNmx -mulmxA HU mulmx1 addNr. Qed.
Lemma prV_V : prV *m V = 0.
Proof. by rewrite /prV mulmxDl mul1mx mulNmx mulNmx -mulmxA HV mulmx1 addNr. Qed.
Lemma prU_ctr : ctr prU = prU.
Proof. by rewrite /prU ctrD ctr1 ctrM ctrK ctrN mulmxN mulNmx. Qed.
Lemma prV_ctr : ctr prV = prV.
Proof. by rewrite /prV ctrD ctr1 ctrM ctrK ctrN mulmxN mulNmx. Qed.

Lemma change_gu : change gu (damped_dU e S U dU V dV) = change gu (prU *m dU) + change X (Wd e S W Q).
Proof. rewrite damped_dU_is prU_dU mulmxBr addrA addrAC changeDr. congr (_ + _). exact: change_move. Qed.
Lemma change_gv : change gv (damped_dV e S U dU V dV) = change gv (prV *m dV) + change Y (Qd e S W Q).
Proof. rewrite damped_dV_is prV_dV mulmxBr addrA addrAC changeDr. congr (_ + _). exact: change_move. Qed.

Section Inv.
Hypothesis Hinv : forall j, safe_inverse_2 e (S 0 j) * S 0 j = 1.
Lemma inv_conj j : (mat_sinv e S 0 j)^* = mat_sinv e S 0 j.
Proof.
rewrite mxE. have H := Hinv j. move: H; rewrite /safe_inverse_2. case: ifP => _; rewrite ?conjC0 // => _.
by rewrite fmorphV HS.
Qed.
Lemma S_inv : diag_mx S *m diag_mx (mat_sinv e S) = 1%:M.
Proof.
rewrite -colscaleE. apply/matrixP => i j. rewrite !mxE. case: eqP => [->|_]; last by rewrite mulr0n mul0r.
by rewrite mulr1n mulrC Hinv.
Qed.
Lemma inv_S : diag_mx (mat_sinv e S) *m diag_mx S = 1%:M.
Proof. exact: (mulmx1C S_inv). Qed.

Lemma out_U : change (prU *m colscale gu (mat_sinv e S) *m ctr V) dA = change gu (prU *m dU).
Proof.
move: prU prU_U prU_ctr => p pU pc.
rewrite colscaleE change_mul change_mulr pc (ctr_diag inv_conj). congr (change _ _).
rewrite HdA !mulmxDr !mulmxDl !mulmxA pU !mul0mx !addr0.
by rewrite -[X in X *m _]mulmxA HV mulmx1 -mulmxA S_inv mulmx1.
Qed.
Lemma out_V : change (U *m rowscale (mat_sinv e S) (ctr gv *m prV)) dA = change gv (prV *m dV).
Proof.
move: prV prV_V prV_ctr => p pV pc.
rewrite rowscaleE change_mull change_mull (ctr_diag inv_conj) change_mulr pc.
rewrite -[RHS]change_ctr. congr (change _ _).
have VP: ctr V *m p = 0 by rewrite -pc -ctrM pV ctr0.
rewrite HdA !mulmxDr !mulmxDl -!mulmxA VP !mulmx0 !add0r.
rewrite (mulmxA (ctr U)) HU mul1mx (mulmxA (diag_mx _)) inv_S mul1mx. by rewrite ctrM pc.
Qed.
End Inv.

Lemma half_mul a b c (A : 'M[C]_(a, b)) (B : 'M[C]_(b, c)) : half (A *m B) = A *m half B.
Proof. by rewrite !halfE -scalemxAr. Qed.
Lemma half_mulr a b c (A : 'M[C]_(a, b)) (B : 'M[C]_(b, c)) : half (A *m B) = half A *m B.
Proof. by rewrite !halfE -scalemxAl. Qed.

Variable L : 'rV[C]_k.+1.
Hypothesis HLdiag : forall i,
  T2 ((L 0 i)^* * (W i i * S 0 i - S 0 i * Q i i)) = T2 ((X i i)^* * W i i + (Y i i)^* * Q i i).
Hypothesis HLim : forall i, (L 0 i)^* = - L 0 i.
Hypothesis Hinv : (k.+1 < m)%N || (k.+1 < n)%N -> forall j, safe_inverse_2 e (S 0 j) * S 0 j = 1.

Lemma svd_pairing :
  change (u_term e U S V gu + colscale U gs *m ctr V + v_term e U S V gv + colscale U L *m ctr V) dA
  = change gu (damped_dU e S U dU V dV) + change gs dS + change gv (damped_dV e S U dU V dV).
Proof.
rewrite change_gu change_gv.
have Eu: u_term e U S V gu = U *m half (had (mat_F e S + mat_G e S) (X - ctr X)) *m ctr V
   + (if (k.+1 < m)%N then prU *m colscale gu (mat_sinv e S) *m ctr V else 0).
  rewrite /u_term half_mul /X ctrM ctrK. case: ifP => _; by rewrite ?mulmxDl ?addr0.
have Ev: v_term e U S V gv = U *m half (had (mat_F e S - mat_G e S) (Y - ctr Y)) *m ctr V
   + (if (k.+1 < n)%N then U *m rowscale (mat_sinv e S) (ctr gv *m prV) else 0).
  rewrite /v_term half_mulr /Y ctrM ctrK. case: ifP => _; by rewrite ?mulmxDr ?addr0 mulmxA.
have EK: U *m half (had (mat_F e S + mat_G e S) (X - ctr X)) *m ctr V + colscale U gs *m ctr V
   + U *m half (had (mat_F e S - mat_G e S) (Y - ctr Y)) *m ctr V + colscale U L *m ctr V
   = U *m Kmat e S gs X Y (diag_mx L) *m ctr V.
  rewrite !colscaleE /Kmat !mulmxDr !mulmxDl. congr (_ + _). by rewrite addrAC.
have Hu: change (if (k.+1 < m)%N then prU *m colscale gu (mat_sinv e S) *m ctr V else 0) dA = change gu (prU *m dU).
  case: ifP => lt; first by apply: out_U; apply: Hinv; rewrite lt.
  have ->: prU = 0 by rewrite /prU mulNmx (isom_square HU lt) addNr.
  by rewrite mul0mx change0r change0l.
have Hv: change (if (k.+1 < n)%N then U *m rowscale (mat_sinv e S) (ctr gv *m prV) else 0) dA = change gv (prV *m dV).
  case: ifP => lt; first by apply: out_V; apply: Hinv; rewrite lt orbT.
  have ->: prV = 0 by rewrite /prV mulNmx (isom_square HV lt) addNr.
  by rewrite mul0mx change0r change0l.
have HC: change (U *m Kmat e S gs X Y (diag_mx L) *m ctr V) dA
         = change X (Wd e S W Q) + change Y (Qd e S W Q) + change gs dS.
  rewrite change_mul P_is. apply: core => //.
  - by move=> i j nij; rewrite mxE (negPf nij) mulr0n.
  - by move=> i; rewrite mxE eqxx mulr1n.
  - by move=> i; rewrite mxE eqxx mulr1n.
rewrite Eu Ev.
set a := U *m half (had (mat_F e S + _) _) *m _; set b := if (k.+1 < m)%N then _ else _.
set c := U *m half _ *m _; set d := if _ then _ else _.
move: EK HC Hu Hv; rewrite -/a -/b -/c -/d => EK HC Hu Hv.
rewrite !changeDl -Hu -Hv. apply: sc_sumF. by rewrite -!changeDl EK.
Qed.
End Svd.
End P.
