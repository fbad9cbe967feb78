(** Proofs for C68: the theorems about [svd_backward], [svdsymeig_backward], [symeig_backward]. *)
Set Warnings "-notation-overridden,-ambiguous-paths".
From mathcomp Require Import all_ssreflect all_algebra.
Import Order.TTheory GRing.Theory Num.Theory.
From Verif Require Import DecompGrad DecompGradSpec DecompGradProofs DecompGradProofs2.
Set Implicit Arguments.
Unset Strict Implicit.
Unset Printing Implicit Defensive.
Open Scope ring_scope.

Section P.
Variable C : numClosedFieldType.

Lemma realE (x : C) : x \is Num.real -> x^* = x.
Proof. exact: conj_Creal. Qed.
Lemma conj_mem (x : C) : x^* = x -> x \is Num.real.
Proof. by move=> H; apply/CrealP. Qed.

Lemma real_mul a b c (A : 'M[C]_(a, b)) (B : 'M[C]_(b, c)) : all_real A -> all_real B -> all_real (A *m B).
Proof. move=> HA HB i j. rewrite mxE. apply: rpred_sum => l _. exact: rpredM. Qed.
Lemma real_ctr a b (A : 'M[C]_(a, b)) : all_real A -> ctr A = A^T.
Proof. move=> H; apply/matrixP => i j. by rewrite ctrE mxE realE. Qed.
Lemma real_tr a b (A : 'M[C]_(a, b)) : all_real A -> all_real A^T.
Proof. by move=> H i j; rewrite mxE. Qed.

Lemma anti_real k (M : 'M[C]_k) : ctr M = - M -> all_real M -> forall i, M i i = 0.
Proof.
move=> H R i. move/matrixP: H => /(_ i i). rewrite ctrE realE // [X in _ = X]mxE => E.
apply/eqP. have: M i i *+ 2 == 0 by rewrite mulr2n {1}E addNr. by rewrite mulrn_eq0.
Qed.

Lemma phase_im m k (U gu : 'M[C]_(m, k)) l : \sum_i 'Re ((gu i l)^* * ('i * U i l)) = 'Im ((ctr U *m gu) l l).
Proof.
rewrite -raddf_sum mxE ImE.
have ->: \sum_i (gu i l)^* * ('i * U i l) = 'i * (\sum_j ctr U l j * gu j l)^*.
  rewrite rmorph_sum big_distrr /=. apply: eq_bigr => i _. by rewrite ctrE rmorphM conjCK mulrCA (mulrC (U i l)).
set x := \sum_j _. rewrite /= ReE rmorphM conjCK conjCi mulNr -mulrBr. by [].
Qed.

Lemma im_two (x : C) : x - x^* = ('i * 'Im x) * 2%:R.
Proof.
rewrite ImE. rewrite mulrA -mulrA mulVf ?two_neq0 // mulr1 mulrA -expr2 sqrCi mulN1r opprB //.
Qed.

Lemma svd_regularised m n k (cplx diag : bool) (eps : C) (A dA : 'M[C]_(m, n)) (U dU gu : 'M[C]_(m, k.+1))
  (S dS gs : 'rV[C]_k.+1) (V dV gv : 'M[C]_(n, k.+1)) :
  svd_curve A dA U dU S dS V dV -> eps \is Num.real -> all_real gs ->
  (cplx || (k.+1 < m)%N || (k.+1 < n)%N -> forall j, S 0 j != 0 /\ S 0 0 * eps <= `|S 0 j|) ->
  (if cplx then phase_free U gu V gv else
     all_real U /\ all_real dU /\ all_real gu /\ all_real V /\ all_real dV /\ all_real gv) ->
  exists gA, svd_backward cplx diag U S V eps (Some gu) (Some gs) (Some gv) = Ret gA /\
  change gA dA = change gu (damped_dU (S 0 0 * eps) S U dU V dV) + change gs dS
                 + change gv (damped_dV (S 0 0 * eps) S U dU V dV).
Proof.
move=> [Hp /orth_of [HU HdU] /orth_of [HV HdV] HSd] Heps Hgs Hinv Hph.
have [_ HdA] := dA_of Hp.
have HS j : (S 0 j)^* = S 0 j := congr1 fst (HSd j).
have HdS j : (dS 0 j)^* = dS 0 j := congr1 snd (HSd j).
have He : (S 0 0 * eps)^* = S 0 0 * eps by rewrite rmorphM HS realE.
have gsr j : (gs 0 j)^* = gs 0 j by apply: realE.
have Hi: cplx || (k.+1 < m)%N || (k.+1 < n)%N -> forall j, safe_inverse_2 (S 0 0 * eps) (S 0 j) * S 0 j = 1.
  move=> /Hinv H j. have [nz ge] := H j. rewrite /safe_inverse_2.
  have ->: `|S 0 j| < S 0 0 * eps = false.
    apply/negbTE. rewrite -real_leNgt ?normr_real //. exact: conj_mem.
  by rewrite mulVf.
have Hi2: (k.+1 < m)%N || (k.+1 < n)%N -> forall j, safe_inverse_2 (S 0 0 * eps) (S 0 j) * S 0 j = 1.
  by move=> H; apply: Hi; rewrite -orbA H orbT.
case: cplx Hinv Hph Hi => /= _ Hph Hi; eexists; (split; first reflexivity).
- rewrite /imag_term. apply: svd_pairing => // i.
  + rewrite mxE. set X := ctr U *m gu. set W := ctr U *m dU. set Q := ctr V *m dV.
    have w: (W i i)^* = - W i i by rewrite [in RHS](antiE HdU i i) opprK.
    have q: (Q i i)^* = - Q i i by rewrite [in RHS](antiE HdV i i) opprK.
    have x := im_two (X i i).
    have y: (ctr V *m gv) i i - ((ctr V *m gv) i i)^* = - (('i * 'Im (X i i)) * 2%:R).
      rewrite im_two. move: (Hph i); rewrite !phase_im -/X => /eqP; rewrite addr_eq0 => /eqP ->.
      by rewrite mulrN mulNr opprK.
    have I := Hi erefl i. have cI := inv_conj HS (Hi erefl) i.
    set t := 'Im (X i i) in x y *. set v := mat_sinv _ _ _ _ in cI *.
    have vs: v * S 0 i = 1 by rewrite /v mxE.
    have lc: ('i * (t * v))^* = - ('i * (t * v)).
      by rewrite !rmorphM conjCi cI (realE (Creal_Im _)) mulNr.
    rewrite /T2 !(rmorphM, rmorphD, rmorphN, conjCK) conjCi cI (realE (Creal_Im _)) w q HS.
    rewrite -/t (mulNr 'i (t * v)).
    apply: (sc_phaseF (r := 'i * t)).
    + by rewrite -!mulrA vs mulr1.
    + by rewrite x mulr_natr mulr2n.
    + by rewrite y mulr_natr mulr2n.
  + rewrite mxE !rmorphM conjCi mulNr. congr (- (_ * _)). rewrite (realE (Creal_Im _)). congr (_ * _).
    exact: (inv_conj HS (Hi erefl)).
- have [RU [RdU [Rgu [RV [RdV Rgv]]]]] := Hph.
  have W0 i : (ctr U *m dU) i i = 0.
    apply: anti_real => //. rewrite real_ctr //. apply: real_mul => //. exact: real_tr.
  have Q0 i : (ctr V *m dV) i i = 0.
    apply: anti_real => //. rewrite real_ctr //. apply: real_mul => //. exact: real_tr.
  rewrite -[X in change X _]addr0.
  have ->: (0 : 'M[C]_(m, n)) = colscale U 0 *m ctr V.
    rewrite colscaleE. have ->: diag_mx (0 : 'rV[C]_k.+1) = 0 by rewrite raddf0. by rewrite mulmx0 mul0mx.
  apply: svd_pairing => // i.
  + by rewrite W0 Q0 mulr0 mul0r subrr !mulr0 addr0.
  + by rewrite mxE conjC0 oppr0.
Qed.

(** without regularization *)
Lemma damping0 (x : C) : x != 0 -> damping 0 x = 1.
Proof. move=> nz. by rewrite /damping addr0 divff // expf_eq0. Qed.

Lemma halves (a b : C) : (a + b) / 2%:R + (a - b) / 2%:R = a.
Proof.
rewrite -mulrDl addrACA subrr addr0 -mulr2n -mulr_natr -mulrA divff ?mulr1 //. exact: two_neq0.
Qed.
Lemma halvesN (a b : C) : (a + b) / 2%:R - (a - b) / 2%:R = b.
Proof. rewrite -[RHS](halves b a) -mulNr opprB (addrC b). by []. Qed.

Lemma undamped_dU m n k (S : 'rV[C]_k) (U dU : 'M[C]_(m, k)) (V dV : 'M[C]_(n, k)) :
  (forall a b, a != b -> S 0 b - S 0 a != 0 /\ S 0 b + S 0 a != 0) ->
  damped_dU 0 S U dU V dV = dU /\ damped_dV 0 S U dU V dV = dV.
Proof.
move=> H; split; apply/matrixP => i b; rewrite mxE big1 ?addr0 // => a nab; have [n1 n2] := H a b nab;
  rewrite /damped_both /damped_against !damping0 // !mul1r ?halves ?halvesN subrr mulr0 //.
Qed.

Lemma svd_exact m n k (cplx diag : bool) (A dA : 'M[C]_(m, n)) (U dU gu : 'M[C]_(m, k.+1))
  (S dS gs : 'rV[C]_k.+1) (V dV gv : 'M[C]_(n, k.+1)) :
  svd_curve A dA U dU S dS V dV -> (forall j, 0 < S 0 j) -> (forall i j, i != j -> S 0 i != S 0 j) -> all_real gs ->
  (if cplx then phase_free U gu V gv else
     all_real U /\ all_real dU /\ all_real gu /\ all_real V /\ all_real dV /\ all_real gv) ->
  exists gA, svd_backward cplx diag U S V 0 (Some gu) (Some gs) (Some gv) = Ret gA /\
  change gA dA = change gu dU + change gs dS + change gv dV.
Proof.
move=> Hc pos dist Hgs Hph.
have inv: cplx || (k.+1 < m)%N || (k.+1 < n)%N -> forall j, S 0 j != 0 /\ S 0 0 * 0 <= `|S 0 j|.
  move=> _ j; split; [exact: lt0r_neq0 | by rewrite mulr0 normr_ge0].
have [gA [E P]] := svd_regularised diag Hc (real0 C) Hgs inv Hph.
exists gA; split=> //. rewrite P mulr0.
have [|-> ->] := @undamped_dU m n _ S U dU V dV; last by [].
move=> a b nab; split; last by rewrite lt0r_neq0 // addr_gt0.
rewrite subr_eq0. apply: dist. by rewrite eq_sym.
Qed.

(** what the regularization leaves out *)
Lemma damping_bounds (e x : C) : 0 <= e -> x \is Num.real -> x != 0 ->
  0 <= damping e x <= 1 /\ 1 - damping e x <= e / x ^+ 2.
Proof.
move=> e0 xr nz.
have x2: 0 < x ^+ 2.
  by rewrite lt_neqAle eq_sym expf_neq0 //= -realEsqr.
have d0: 0 < x ^+ 2 + e by rewrite ltr_paddr.
have E: 1 - damping e x = e / (x ^+ 2 + e).
  by rewrite /damping -{1}(divff (lt0r_neq0 d0)) -mulrBl addrAC subrr add0r.
split.
- rewrite /damping divr_ge0 ?(ltW x2) ?(ltW d0) //=. rewrite ler_pdivr_mulr // mul1r ler_addl. exact: e0.
- rewrite E. apply: ler_wpmul2l => //. rewrite lef_pinv ?posrE //. by rewrite ler_addl.
Qed.

(** symmetric eigenvalue decomposition *)
Lemma symeig_regularised k (eps : C) (A dA U dU gU : 'M[C]_k.+1) (D dD gD : 'rV[C]_k.+1) :
  eig_curve A dA U dU D dD -> eps \is Num.real -> all_real gD -> phase_free_1 U gU ->
  change (symeig_backward eps D U gD gU) dA = change gD dD + change gU (damped_dE eps D U dU).
Proof.
move=> [Hp /orth_of [HU HdU] HDd] Heps Hg Hph.
have [_ HdA] := dA_of Hp.
have HD j : (D 0 j)^* = D 0 j := congr1 fst (HDd j).
have HdD j : (dD 0 j)^* = dD 0 j := congr1 snd (HDd j).
have gr j : (gD 0 j)^* = gD 0 j by apply: realE.
set W := ctr U *m dU. set X := ctr U *m gU.
have UU: U *m ctr U = 1%:M by exact: mulmx1C.
have EW: dU = U *m W by rewrite mulmxA UU mul1mx.
pose Wd : 'M[C]_k.+1 := \matrix_(a, b) if a == b then W a b else damping eps (D 0 b - D 0 a) * W a b.
have Ed: damped_dE eps D U dU = U *m Wd.
  have ->: U *m Wd = dU + U *m (Wd - W) by rewrite mulmxBr -EW addrC subrK.
  apply/matrixP => i b. rewrite mxE [in RHS]mxE. congr (_ + _). rewrite mxE [RHS](bigD1 b) //=.
  rewrite !mxE eqxx subrr mulr0 add0r. apply: eq_bigr => a nab.
  rewrite [X in _ = _ * X]mxE [X in _ = _ * (X + _)]mxE (negPf nab). congr (_ * _).
  have rU: rot U dU a b = W a b by rewrite /rot /W mxE; apply: eq_bigr => l _; rewrite ctrE.
  by rewrite rU [X in _ = _ + X]mxE.
rewrite Ed change_move -/X /symeig_backward change_mul -/X.
rewrite (P_is HU HU HdU HdA) -/W.
have ->: change gD dD = \sum_i \sum_j 'Re (if i == j then (gD 0 i)^* * dD 0 i else 0).
  rewrite /change big_ord1. apply: eq_bigr => i _.
  rewrite (bigD1 i) //= eqxx big1 ?addr0 // => j; rewrite eq_sym => /negPf ->; exact: raddf0.
rewrite /change -big_split /=. apply: eq_bigr => i _. rewrite -big_split /=. apply: eq_bigr => j _.
rewrite -raddfD.
case: (altP (i =P j)) => [->|nij].
- have EK: (diag_mx gD + had (mat_F eps D) X) j j = gD 0 j.
    by rewrite mxE [had _ _ _ _]mxE [mat_F _ _ _ _]mxE eqxx mul0r addr0 mxE eqxx mulr1n.
  have EP: Pmat D dD W W j j = dD 0 j by rewrite P_diag mulrC addrAC subrr add0r.
  have Ew: Wd j j = W j j by rewrite mxE eqxx.
  have R: forall a b : C, 'Re (a + b) = 'Re a + 'Re b by move=> a b; exact: raddfD.
  rewrite EK EP Ew /= R.
  suff ->: 'Re ((X j j)^* * W j j) = 0 by rewrite addr0.
  have w: (W j j)^* = - W j j by rewrite [in RHS](antiE HdU j j) opprK.
  have x: (X j j)^* = X j j.
    apply/eqP; rewrite eq_sym -subr_eq0 im_two -phase_im Hph mulr0 mul0r. exact: eqxx.
  by rewrite ReE2 /T2 rmorphM conjCK w x mulrN subrr mul0r.
- have EK: (diag_mx gD + had (mat_F eps D) X) i j = mat_F eps D i j * X i j.
    by rewrite mxE [diag_mx _ _ _]mxE (negPf nij) mulr0n add0r mxE.
  have Ew: Wd i j = damping eps (D 0 j - D 0 i) * W i j by rewrite mxE (negPf nij).
  rewrite EK (P_off _ _ _ _ nij) Ew add0r (damp_F eps D nij) /=. congr ('Re _).
  rewrite rmorphM (F_conj (realE Heps) HD).
  rewrite (mulrC (D 0 i)) -mulrBr -mulrA mulrCA. congr (_ * _). by rewrite mulrAC -mulrA.
Qed.

Lemma symeig_exact k (A dA U dU gU : 'M[C]_k.+1) (D dD gD : 'rV[C]_k.+1) :
  eig_curve A dA U dU D dD -> (forall i j, i != j -> D 0 i != D 0 j) -> all_real gD -> phase_free_1 U gU ->
  change (symeig_backward 0 D U gD gU) dA = change gD dD + change gU dU.
Proof.
move=> Hc dist Hg Hph. rewrite (symeig_regularised Hc (real0 C) Hg Hph). congr (_ + change _ _).
apply/matrixP => i b. rewrite mxE big1 ?addr0 // => a nab. rewrite damping0 ?mul1r ?subrr ?mulr0 //.
rewrite subr_eq0. apply: dist. by rewrite eq_sym.
Qed.

(** decomposition of symmetric matrices given as a singular value decomposition *)
Lemma svdsymeig_regularised k (e : C) (A dA U dU gu V dV gv : 'M[C]_k.+1) (S dS gs : 'rV[C]_k.+1) :
  svd_curve A dA U dU S dS V dV -> e \is Num.real -> all_real gs ->
  all_real U -> all_real dU -> all_real gu -> all_real V -> all_real dV -> all_real gv ->
  change (svdsymeig_backward e U S V gu gs gv) dA
  = change gu (damped_dU e S U dU V dV) + change gs dS + change gv (damped_dV e S U dU V dV).
Proof.
move=> [Hp /orth_of [HU HdU] /orth_of [HV HdV] HSd] Heps Hgs RU RdU Rgu RV RdV Rgv.
have [_ HdA] := dA_of Hp.
have HS j : (S 0 j)^* = S 0 j := congr1 fst (HSd j).
have HdS j : (dS 0 j)^* = dS 0 j := congr1 snd (HSd j).
have gsr j : (gs 0 j)^* = gs 0 j by apply: realE.
have W0 i : (ctr U *m dU) i i = 0.
  apply: anti_real => //. rewrite real_ctr //. apply: real_mul => //. exact: real_tr.
have Q0 i : (ctr V *m dV) i i = 0.
  apply: anti_real => //. rewrite real_ctr //. apply: real_mul => //. exact: real_tr.
have ->: svdsymeig_backward e U S V gu gs gv =
  u_term e U S V gu + colscale U gs *m ctr V + v_term e U S V gv + colscale U 0 *m ctr V.
  rewrite /svdsymeig_backward /u_term /v_term ltnn (half_mul U) half_mulr !colscaleE.
  have ->: diag_mx (0 : 'rV[C]_k.+1) = 0 by rewrite raddf0.
  rewrite mulmx0 mul0mx addr0.
  have ->: (U^T *m gu)^T = ctr gu *m U by rewrite trmx_mul trmxK real_ctr.
  have ->: (V^T *m gv)^T = ctr gv *m V by rewrite trmx_mul trmxK real_ctr.
  rewrite -(real_ctr RU) -(real_ctr RV) !mulmxDr !mulmxDl [RHS]addrAC -!mulmxA. by [].
apply: svd_pairing => //.
- exact: realE.
- by move=> i; rewrite W0 Q0 mulr0 mul0r subrr !mulr0 addr0.
- by move=> i; rewrite mxE conjC0 oppr0.
- by rewrite ltnn.
Qed.
End P.
