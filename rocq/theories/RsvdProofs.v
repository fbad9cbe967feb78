(** Proofs about randomised singular value decompositions. *)
Set Warnings "-notation-overridden,-ambiguous-paths".
From mathcomp Require Import all_ssreflect all_algebra.
Import GRing.Theory Num.Theory.
From Verif Require Import DecompGrad DecompGradProofs Rsvd RsvdSpec.
Set Implicit Arguments.
Unset Strict Implicit.
Unset Printing Implicit Defensive.
Open Scope ring_scope.

Section Gram.
Variable C : numClosedFieldType.
Lemma gram0 a b (X : 'M[C]_(a, b)) : ctr X *m X = 0 -> X = 0.
Proof.
move=> H; apply/matrixP => i j; rewrite mxE.
have E : \sum_k `|X k j| ^+ 2 = 0.
  transitivity ((ctr X *m X) j j); last by rewrite H mxE.
  by rewrite mxE; apply: eq_bigr => k _; rewrite ctrE normCK mulrC.
have P : forall k, true -> 0 <= `|X k j| ^+ 2 by move=> k _; apply: exprn_ge0.
have /(_ i isT) := psumr_eq0P (fun k _ => P k isT) E.
by move/eqP; rewrite expf_eq0 /= normr_eq0 => /eqP.
Qed.
(** the normal equations have solutions *)
Lemma normal a b (A : 'M[C]_(a, b)) : exists W, ctr A = ctr A *m A *m W.
Proof.
have : (A <= ctr A *m A)%MS.
  rewrite submxE; apply/eqP; apply: gram0.
  by rewrite ctrM -!mulmxA (mulmxA (ctr A)) mulmx_coker mulmx0.
case/submxP => W E; exists (ctr W).
by rewrite {1}E !ctrM ctrK.
Qed.
Lemma spans_step m n c (M : 'M[C]_(m, n)) (Y : 'M[C]_(m, c)) : spans_columns Y M -> spans_columns (ctr M *m Y) (ctr M).
Proof. case=> W E; case: (normal M) => V N; exists (W *m V). by rewrite {1}N {2}E !mulmxA. Qed.
Lemma spans_left m n c d (M : 'M[C]_(m, n)) (Q : 'M[C]_(m, c)) (R : 'M[C]_(c, d)) : spans_columns (Q *m R) M -> spans_columns Q M.
Proof. case=> W E; exists (R *m W). by rewrite mulmxA. Qed.
Lemma spans_project m n c (M : 'M[C]_(m, n)) (Q : 'M[C]_(m, c)) : ortho Q -> spans_columns Q M -> Q *m ctr Q *m M = M.
Proof. move=> O [W E]. by rewrite E mulmxA -(mulmxA Q) O mulmx1. Qed.
Lemma orthoM a b c (Q : 'M[C]_(a, b)) (U : 'M[C]_(b, c)) : ortho Q -> ortho U -> ortho (Q *m U).
Proof. move=> O P. by rewrite /ortho ctrM -mulmxA (mulmxA (ctr Q)) O mul1mx. Qed.
Lemma descending_conj r (S : 'rV[C]_r) : descending S -> ctr (diag_mx S) = diag_mx S.
Proof. case=> P _; apply: ctr_diag => j. by apply: conj_Creal; apply: ger0_real. Qed.
Lemma svd_triples m n (M : 'M[C]_(m, n)) (d : usv C m n) : is_svd M d -> triples M d.
Proof.
case=> O P D E; split=> //; rewrite {1}E.
  by rewrite -mulmxA P mulmx1.
by rewrite !ctrM ctrK (descending_conj D) -!mulmxA O mulmx1.
Qed.

(** leading columns *)
Lemma first_inj k r : injective (@first k r).
Proof. by move=> i j /(congr1 val) /= E; apply: val_inj. Qed.
Lemma diag_cols a r (U : 'M[C]_(a, r)) (S : 'rV[C]_r) i j : (U *m diag_mx S) i j = U i j * S 0 j.
Proof.
rewrite mxE (bigD1 j) //= big1 ?addr0 ?mxE ?eqxx ?mulr1n // => l /negPf N.
by rewrite mxE N mulr0n mulr0.
Qed.
Lemma ortho_cut a k r (U : 'M[C]_(a, r)) : ortho U -> ortho (\matrix_(i, j) U i (@first k r j)).
Proof.
move=> O; apply/matrixP => i j; have := congr1 (fun A : 'M[C]_r => A (first i) (first j)) O.
rewrite !mxE (inj_eq (@first_inj k r)) => <-; apply: eq_bigr => l _. by rewrite !ctrE !mxE.
Qed.
Lemma descending_cut k r (S : 'rV[C]_r) : descending S -> descending (\row_j S 0 (@first k r j)).
Proof. case=> P D; split=> [i|i j L]; rewrite !mxE //. by apply: D. Qed.
Lemma triples_cut m n k (M : 'M[C]_(m, n)) (d : usv C m n) : triples M d -> triples M (cut k d).
Proof.
case: d => r U S V [/= O P D E F]; split=> /=; [exact: ortho_cut|exact: ortho_cut|exact: descending_cut| |].
  apply/matrixP => i j; rewrite diag_cols !mxE -diag_cols -E !mxE; apply: eq_bigr => l _; congr (_ * _); by rewrite [LHS]mxE.
apply/matrixP => i j; rewrite diag_cols !mxE -diag_cols -F !mxE; apply: eq_bigr => l _; congr (_ * _); by rewrite [LHS]mxE.
Qed.
Lemma cut_leading m n k (d : usv C m n) : leading k d (cut k d).
Proof.
case: d => r U S V; split=> //=; exists (@first k r); split=> //= [i j|j|i j]; by rewrite mxE.
Qed.
Lemma cut_cut_leading m n k (d : usv C m n) : leading k d (cut k (cut k.+1 d)).
Proof.
case: d => r U S V; split=> /=.
  by rewrite minnA (minn_idPl (leqnSn k)).
exists (fun j => @first k.+1 r (@first k (minn k.+1 r) j)); split=> //= [i j|j|i j]; by rewrite !mxE.
Qed.
End Gram.

Section Run.
Variables (C : numClosedFieldType) (b : nat).
Variable qr : forall a b, 'M[C]_(a, b) -> 'M[C]_(a, minn a b) * 'M[C]_(minn a b, b).
Variable svd : forall a b, 'M[C]_(a, b) -> 'M[C]_(a, minn a b) * 'rV[C]_(minn a b) * 'M[C]_(b, minn a b).
Hypotheses (HQ : qr_ok b qr) (HS : svd_ok b svd).
Variables (m n : nat) (M : 'M[C]_(m, n)).
Hypotheses (Bm : (m <= b)%N) (Bn : (n <= b)%N).
Lemma min_le x y : (x <= b)%N -> (minn x y <= b)%N.
Proof. move=> H. exact: leq_trans (geq_minl x y) H. Qed.
Lemma qr_spans x y c (A : 'M[C]_(x, y)) (Y : 'M[C]_(x, c)) : (x <= b)%N -> (c <= b)%N -> spans_columns Y A -> spans_columns (qr Y).1 A.
Proof. move=> X L. case: (HQ Y X L) => _ E. rewrite {1}E. exact: spans_left. Qed.

Lemma pass_ok s (Y : tall C m) j : (cols Y <= b)%N ->
  (cols (pass qr M s Y j) <= b)%N /\ (spans_columns (mx Y) M -> spans_columns (mx (pass qr M s Y j)) M).
Proof.
move=> L; rewrite /pass.
set Z := (if _ then Tall (ctr M *m (qr (mx Y)).1) else _).
have [LZ SZ] : (cols Z <= b)%N /\ (spans_columns (mx Y) M -> spans_columns (mx Z) (ctr M)).
  rewrite /Z; case: ifP => _ /=; split=> //; first exact: min_le.
    by move=> H; apply: spans_step; apply: qr_spans.
  exact: spans_step.
case: ifP => _ /=; split=> //; first exact: min_le.
  move=> H; have K := qr_spans Bn LZ (SZ H).
  by have := spans_step K; rewrite ctrK.
by move=> H; have := spans_step (SZ H); rewrite ctrK.
Qed.
Lemma loop_ok s js (Y : tall C m) : (cols Y <= b)%N ->
  (cols (foldl (pass qr M s) Y js) <= b)%N /\ (spans_columns (mx Y) M -> spans_columns (mx (foldl (pass qr M s) Y js)) M).
Proof.
elim: js Y => [|j js IH] Y L //=.
case: (pass_ok s j L) => L1 S1; case: (IH _ L1) => L2 S2; split=> // H; auto.
Qed.

Lemma pass_power l (B : 'M[C]_(m, l)) s (Y : tall C m) j : (cols Y <= b)%N -> spans_columns (mx Y) B -> spans_columns (mx (pass qr M s Y j)) (M *m ctr M *m B).
Proof.
move=> L H; rewrite /pass.
set Z := (if _ then Tall (ctr M *m (qr (mx Y)).1) else _).
have T c a d (X : 'M[C]_(a, m)) (V : 'M[C]_(m, c)) (D : 'M[C]_(m, d)) : spans_columns V D -> spans_columns (X *m V) (X *m D).
  by case=> W ->; exists W; rewrite mulmxA.
have [LZ SZ] : (cols Z <= b)%N /\ spans_columns (mx Z) (ctr M *m B).
  rewrite /Z; case: ifP => _ /=; split=> //; [exact: min_le|by apply: T; apply: qr_spans|exact: T].
rewrite -mulmxA; case: ifP => _ /=.
  by case: (qr_spans Bn LZ SZ) => W ->; exists W; rewrite mulmxA.
by case: SZ => W ->; exists W; rewrite mulmxA.
Qed.
Lemma loop_power l (B : 'M[C]_(m, l)) s js (Y : tall C m) : (cols Y <= b)%N -> spans_columns (mx Y) B ->
  spans_columns (mx (foldl (pass qr M s) Y js)) (power M (size js) B).
Proof.
elim: js Y B => [|j js IH] Y B L H //=.
case: (pass_ok s j L) => L1 _; have := IH _ _ L1 (pass_power s j L H).
by rewrite /power -iterSr.
Qed.
Lemma full l (RN : 'M[C]_(n, l)) k q s vnum : (l <= b)%N -> ((vnum == 1) || (2 < vnum))%N ->
  exists c (Q : 'M[C]_(m, c)) (d : usv C m n), [/\ ortho Q, rsvd qr svd M RN k q s vnum = cut k d, is_svd (Q *m ctr Q *m M) d
    & (spans_columns (M *m RN) M -> Q *m ctr Q *m M = M) /\ spans_columns Q (power M (q - 1) (M *m RN))].
Proof.
move=> L V; rewrite /rsvd V.
set Y := foldl _ _ _.
have [LY SY] : (cols Y <= b)%N /\ (spans_columns (M *m RN) M -> spans_columns (mx Y) M).
  exact: (@loop_ok s _ (Tall (M *m RN)) L).
case: (HQ (mx Y) Bm LY) => OQ EQ.
exists (minn m (cols Y)), (qr (mx Y)).1.
set Q := (qr (mx Y)).1 in OQ EQ *.
set Bt := ctr M *m Q.
have LQ : (minn m (cols Y) <= b)%N by apply: min_le.
case: (HQ Bt Bn LQ) => OB EB.
have LR : (minn n (minn m (cols Y)) <= b)%N by apply: min_le.
case: (HS (qr Bt).2 LR LQ) => OU OV D E.
eexists; split; [exact: OQ|reflexivity| |].
  split=> /=; [|exact: orthoM|exact: D|].
    rewrite ctrK; exact: orthoM.
  have -> : Q *m ctr Q *m M = Q *m ctr Bt by rewrite /Bt ctrM ctrK mulmxA.
  rewrite {1}EB {1}E ctrK !ctrM ctrK (descending_conj D). by rewrite !mulmxA.
split; first by move=> H; apply: spans_project => //; apply: qr_spans => //; apply: SY.
apply: qr_spans => //; rewrite -(size_iota 1 (q - 1)); apply: loop_power => //=.
by exists 1%:M; rewrite mulmx1.
Qed.

Theorem rsvd_ok l (RN : 'M[C]_(n, l)) k q s vnum : (l <= b)%N -> ((vnum == 1) || (2 < vnum))%N ->
  exists c (Q : 'M[C]_(m, c)) (d : usv C m n), [/\ ortho Q, spans_columns Q (power M (q - 1) (M *m RN)), is_svd (Q *m ctr Q *m M) d, leading k d (rsvd qr svd M RN k q s vnum)
    & triples (Q *m ctr Q *m M) (rsvd qr svd M RN k q s vnum)].
Proof.
move=> L V; case: (full RN k q s L V) => c [Q [d [O -> D [_ P]]]].
exists c, Q, d; split=> //; first exact: cut_leading.
by apply: triples_cut; apply: svd_triples.
Qed.
Theorem exact_ok l (RN : 'M[C]_(n, l)) k q s vnum : (l <= b)%N -> ((vnum == 1) || (2 < vnum))%N -> spans_columns (M *m RN) M ->
  (exists d : usv C m n, is_svd M d /\ leading k d (rsvd qr svd M RN k q s vnum)) /\ triples M (rsvd qr svd M RN k q s vnum).
Proof.
move=> L V H; case: (full RN k q s L V) => c [Q [d [O -> D [E _]]]].
move: D; rewrite (E H) => D; split; first by exists d; split=> //; apply: cut_leading.
by apply: triples_cut; apply: svd_triples.
Qed.
Theorem wrapper_ok chi q (RN : 'M[C]_(n, chi.+1 + q)) niter s vnum : (chi.+1 + q <= b)%N -> ((vnum == 1) || (2 < vnum))%N -> spans_columns (M *m RN) M ->
  (exists d : usv C m n, is_svd M d /\ leading chi d (truncated_svd_rsvd qr svd M RN niter s vnum))
  /\ triples M (truncated_svd_rsvd qr svd M RN niter s vnum).
Proof.
move=> L V H; case: (full RN chi.+1 niter s L V) => c [Q [d [O X D [E _]]]].
rewrite /truncated_svd_rsvd X; move: D; rewrite (E H) => D; split; first by exists d; split=> //; apply: cut_cut_leading.
by do 2 apply: triples_cut; apply: svd_triples.
Qed.
End Run.

Theorem vnum_bad (C : numClosedFieldType) qr svd m n (M : 'M[C]_(m, n)) l (RN : 'M[C]_(n, l)) k q s vnum : (vnum == 0)%N || (vnum == 2)%N ->
  let d := rsvd qr svd M RN k q s vnum in
  [/\ rk d = l, uu d = 0, ss d = 0, vv d = 0 & (0 < l)%N -> ~ ortho (uu d)].
Proof.
move=> V /=.
have -> : rsvd qr svd M RN k q s vnum = Usv (0 : 'M[C]_(m, l)) 0 0 by rewrite /rsvd; case/orP: V => /eqP ->.
split=> //= L H; have := congr1 (fun A : 'M[C]_l => A (Ordinal L) (Ordinal L)) H.
by rewrite mulmx0 !mxE eqxx mulr1n => /esym/eqP; rewrite oner_eq0.
Qed.

(** a sample spans the columns exactly when it keeps the rank *)
Theorem rank_ok (C : numClosedFieldType) m n l (M : 'M[C]_(m, n)) (RN : 'M[C]_(n, l)) :
  (spans_columns (M *m RN) M <-> \rank (M *m RN) = \rank M) /\ (spans_columns (M *m RN) M -> \rank M <= l)%N.
Proof.
have R : \rank (M *m RN) = \rank M -> spans_columns (M *m RN) M.
  move=> E; have S : ((M *m RN)^T <= M^T)%MS by rewrite trmx_mul submxMl.
  have : (M^T <= (M *m RN)^T)%MS by rewrite -(mxrank_leqif_sup S) !mxrank_tr E.
  by case/submxP => W H; exists W^T; apply: trmx_inj; rewrite trmx_mul trmxK.
have L : spans_columns (M *m RN) M -> \rank (M *m RN) = \rank M.
  case=> W E; apply/eqP; rewrite eqn_leq mxrankM_maxl /=; by rewrite {1}E mxrankM_maxl.
split; first by split.
by move/L => <-; exact: rank_leq_col.
Qed.
