Set Warnings "-notation-overridden,-ambiguous-paths".
From mathcomp Require Import all_ssreflect all_algebra.
Import Order.TTheory GRing.Theory Num.Theory.
From Verif Require Import Proj ProjSpec.
Set Implicit Arguments.
Unset Strict Implicit.
Unset Printing Implicit Defensive.
Open Scope ring_scope.

Section P.
Variable C : numClosedFieldType.

Lemma filter_prefix (p : pred C) (f : C -> C) (l : seq C) :
  (forall i j, (i <= j)%N -> (j < size l)%N -> p (nth 0 l j) -> p (nth 0 l i)) ->
  forall j, (j < size l)%N ->
  nth 0 ([seq f s | s <- filter p l] ++ nseq (size l - size (filter p l)) 0) j = if p (nth 0 l j) then f (nth 0 l j) else 0.
Proof.
elim: l => [|x l IH] H j //=.
case px: (p x) => /=.
- case: j => [|j] /=; first by rewrite px.
  rewrite ltnS subSS => Hj. apply: IH => // i j' Hij Hj'; exact: (H i.+1 j'.+1).
- have no: forall j, (j < size (x :: l))%N -> p (nth 0 (x :: l) j) = false.
    move=> i Hi; apply/negP => Hp; move: (H 0%N i (leq0n _) Hi Hp); by rewrite /= px.
  have ->: filter p l = [::].
    apply/eqP; rewrite -size_eq0 size_filter eqn0Ngt -has_count -all_predC.
    apply/(all_nthP 0) => i Hi; by rewrite /= (no i.+1 Hi).
  move=> Hj; rewrite (no j Hj) cat0s subn0 nth_nseq; by case: ifP.
Qed.

Variables (n m k : nat) (reltol : C).
Hypothesis tol0 : 0 <= reltol.
Variables (R Rt : 'M[C]_(n, m)) (U : 'M[C]_(m, k.+1)) (S : 'rV[C]_k.+1) (V : 'M[C]_(m, k.+1)) (t : nat).
Hypothesis H : trunc_svd (mat_M R Rt) U S V t.

Lemma size_svals : size (svals S) = k.+1.
Proof. by rewrite size_map size_enum_ord. Qed.
Lemma nth_svals (j : 'I_k.+1) : nth 0 (svals S) j = S 0 j.
Proof. rewrite (nth_map ord0) ?size_enum_ord //. by rewrite nth_ord_enum. Qed.

Definition above (x : C) := reltol < x / S 0 0.

Lemma s_nzE : s_nz reltol S = filter above (svals S).
Proof. by rewrite /s_nz /nz_mask filter_mask. Qed.

Lemma above_mono i j : (i <= j)%N -> (j < size (svals S))%N -> above (nth 0 (svals S) j) -> above (nth 0 (svals S) i).
Proof.
move=> Hij Hj. rewrite size_svals in Hj. have Hi := leq_ltn_trans Hij Hj.
rewrite -[j]/(nat_of_ord (Ordinal Hj)) -[i]/(nat_of_ord (Ordinal Hi)) !nth_svals /above => Ha.
apply: (lt_le_trans Ha). apply: ler_wpmul2r; first by rewrite invr_ge0 (ts_nneg H).
exact: (ts_desc H).
Qed.

Lemma nth_s_sqrt (j : 'I_k.+1) : nth 0 (s_sqrt reltol S) j = if above (S 0 j) then (sqrtC (S 0 j))^-1 else 0.
Proof.
rewrite /s_sqrt s_nzE. have := @filter_prefix above (fun s => (sqrtC s)^-1) (svals S) above_mono j.
rewrite size_svals nth_svals. by apply; apply: ltn_ord.
Qed.

Lemma above_pos (j : 'I_k.+1) : above (S 0 j) -> 0 < S 0 j.
Proof.
rewrite /above => Ha. have Hs := ts_nneg H j. rewrite lt0r Hs andbT; apply/eqP => E.
move: Ha; rewrite E mul0r => Ha. by move: (lt_le_trans Ha tol0); rewrite ltxx.
Qed.
Lemma above_t (j : 'I_k.+1) : above (S 0 j) -> (j < t)%N.
Proof. move=> /above_pos Hp. rewrite ltnNge; apply/negP => /(ts_zero H) E. by rewrite E ltxx in Hp. Qed.

Lemma sqrt_cancel (x : C) : 0 < x -> (sqrtC x)^-1 * (sqrtC x)^-1 * x = 1.
Proof.
move=> Hx. have E := sqrtCK x. rewrite -{3}E expr2.
have N : sqrtC x != 0 by rewrite sqrtC_eq0 gt_eqF.
by rewrite mulrACA mulVf ?mul1r.
Qed.

Notation q := (s_sqrt reltol S).
Notation P := (projs_full reltol R Rt U S V).1.
Notation Pt := (projs_full reltol R Rt U S V).2.
Let Q : 'rV[C]_k.+1 := \row_j nth 0 q j.

Lemma scaleE a (A : 'M[C]_(a, k.+1)) : scale A q = A *m diag_mx Q.
Proof. apply/matrixP => i j. by rewrite mul_mx_diag !mxE. Qed.

Lemma PtP_core : P^T *m Pt = diag_mx Q *m ((conjm U)^T *m U) *m diag_mx S *m diag_mx Q.
Proof.
rewrite /= !scaleE !trmx_mul tr_diag_mx.
rewrite -(mulmxA (diag_mx Q)) -!mulmxA. congr (_ *m _). rewrite !mulmxA. congr (_ *m _).
rewrite -mulmxA. rewrite -[RHS]mulmxA -(ts_right H) /mat_M. by rewrite !mulmxA.
Qed.

Lemma biorth_full : P^T *m Pt = diag_mx (kept reltol S).
Proof.
rewrite PtP_core. apply/matrixP => i j.
rewrite !(mul_mx_diag, mul_diag_mx, mxE) -!/(above _) !nth_s_sqrt.
case: (boolP (i == j)) => [/eqP <-|Hij].
- rewrite mulr1n. case: ifP => Ha; last by rewrite !mul0r.
  have Ht := above_t Ha. have := ts_orth H Ht Ht. rewrite eqxx !mxE => ->.
  rewrite mulr1 -mulrA [X in _ * X]mulrC mulrA. exact: sqrt_cancel (above_pos Ha).
- rewrite mulr0n. case: ifP => Ha; last by rewrite !mul0r.
  case: ifP => Hb; last by rewrite mulr0.
  have := ts_orth H (above_t Ha) (above_t Hb). rewrite (negbTE Hij) !mxE => ->.
  by rewrite mulr0 !mul0r.
Qed.

Lemma diag_qSq : diag_mx S *m diag_mx Q *m diag_mx Q *m diag_mx S = diag_mx (kept_vals reltol S).
Proof.
apply/matrixP => i j. rewrite !(mul_mx_diag, mul_diag_mx, mxE) -!/(above _).
case: (boolP (i == j)) => [/eqP <-|Hij]; last by rewrite !mulr0n !mul0r.
rewrite !mulr1n nth_s_sqrt. case: ifP => Ha; last by rewrite mulr0 !mul0r.
have := sqrt_cancel (above_pos Ha). set r := (sqrtC _)^-1. set s := S 0 i => E.
by rewrite -mulrA -mulrA mulrA -!mulrA [r * (r * s)]mulrA E mulr1.
Qed.

Lemma insert_full : R^T *m Pt *m P^T *m Rt = U *m diag_mx (kept_vals reltol S) *m (conjm V)^T.
Proof.
rewrite /= !scaleE !trmx_mul tr_diag_mx -diag_qSq.
have E1 : R^T *m (Rt *m V *m diag_mx Q) = U *m diag_mx S *m diag_mx Q.
  by rewrite -(ts_right H) /mat_M !mulmxA.
have E2 : diag_mx Q *m ((conjm U)^T *m R^T) *m Rt = diag_mx Q *m diag_mx S *m (conjm V)^T.
  by rewrite -!mulmxA -(ts_left H) /mat_M !mulmxA.
by rewrite E1 -mulmxA E2 !mulmxA.
Qed.

Lemma Pt_kept : Pt *m diag_mx (kept reltol S) = Pt.
Proof.
apply/matrixP => i j. rewrite mul_mx_diag !mxE -/(above _) nth_s_sqrt.
case: ifP => Ha; first by rewrite mulr1. by rewrite !mulr0.
Qed.

Lemma idempotent_full : (Pt *m P^T) *m (Pt *m P^T) = Pt *m P^T.
Proof. by rewrite -mulmxA (mulmxA P^T) biorth_full mulmxA Pt_kept. Qed.

(** the variant with nz_count columns *)
Lemma nz_countE : nz_count reltol S = size (s_nz reltol S).
Proof. by rewrite size_mask // size_map. Qed.
Lemma nz_count_le : (nz_count reltol S <= k.+1)%N.
Proof. by rewrite nz_countE s_nzE -[k.+1]size_svals size_filter count_size. Qed.

Lemma above_count (j : 'I_k.+1) : above (S 0 j) = (j < nz_count reltol S)%N.
Proof.
rewrite nz_countE s_nzE.
have := @filter_prefix above (fun s => 1) (svals S) above_mono j.
rewrite size_svals nth_svals => /(_ (ltn_ord j)). rewrite nth_cat size_map nth_nseq.
case: ltnP => Hj.
- rewrite (nth_map 0) //. case: ifP => // _ /eqP. by rewrite oner_eq0.
- case: (above _) => //. rewrite if_same => /eqP. by rewrite eq_sym oner_eq0.
Qed.

Notation P' := (projs_nz reltol R Rt U S V).1.
Notation Pt' := (projs_nz reltol R Rt U S V).2.
Notation w := (widen_ord (geq_minr (nz_count reltol S) k.+1)).

Lemma lt_min (j : 'I_(minn (nz_count reltol S) k.+1)) : (j < nz_count reltol S)%N.
Proof. exact: leq_trans (ltn_ord j) (geq_minl _ _). Qed.

Lemma P'E i j : P' i j = P i (w j).
Proof. rewrite !mxE nth_take ?lt_min //. congr (_ * _). apply: eq_bigr => x _. by rewrite !mxE. Qed.
Lemma Pt'E i j : Pt' i j = Pt i (w j).
Proof. rewrite !mxE nth_take ?lt_min //. congr (_ * _). apply: eq_bigr => x _. by rewrite !mxE. Qed.

Lemma biorth_nz : P'^T *m Pt' = 1%:M.
Proof.
apply/matrixP => i j. have := biorth_full. move/matrixP => /(_ (w i) (w j)).
rewrite [RHS]mxE !mxE -/(above _) above_count /= lt_min. rewrite -(inj_eq val_inj) /= => <-.
apply: eq_bigr => x _. rewrite [_ x j]Pt'E ![_^T _ _]mxE. by rewrite P'E.
Qed.

Lemma P_zero i (j : 'I_k.+1) : (nz_count reltol S <= j)%N -> P i j = 0.
Proof. move=> Hj. rewrite mxE nth_s_sqrt above_count ltnNge Hj /=. by rewrite mulr0. Qed.

Lemma same_product : Pt' *m P'^T = Pt *m P^T.
Proof.
apply/matrixP => a b. rewrite [LHS]mxE [RHS]mxE.
rewrite (eq_bigr (fun j => Pt a (w j) * P b (w j))); last first.
  move=> j _. rewrite [_^T _ _]mxE. by rewrite Pt'E P'E.
rewrite [RHS](eq_bigr (fun j => Pt a j * P b j)); last by move=> j _; rewrite [_^T _ _]mxE.
have Hle : (minn (nz_count reltol S) k.+1 <= k.+1)%N := geq_minr _ _.
pose F (j : nat) := if insub j is Some j' then Pt a j' * P b j' else (0 : C).
have FE (j : 'I_k.+1) : Pt a j * P b j = F j by rewrite /F valK.
rewrite (eq_bigr (fun j : 'I_(minn (nz_count reltol S) k.+1) => F j)); last by move=> j _; rewrite FE.
rewrite (eq_bigr (fun j : 'I_k.+1 => F j)); last by move=> j _; rewrite FE.
rewrite (big_ord_widen _ F Hle) big_mkcond. apply: eq_bigr => j _.
case: ifP => // Hj. rewrite -FE P_zero ?mulr0 //. rewrite leqNgt.
move/negbT: Hj. by rewrite leq_min ltn_ord andbT.
Qed.
End P.

Section Q.
Variable C : numClosedFieldType.
Variables (m k : nat) (M U : 'M[C]_m) (S : 'rV[C]_m) (V : 'M[C]_m).
Hypothesis H : is_svd M U S V.
Variables (Hk : (k.+1 <= m)%N) (t : nat).

Lemma mul_MV : M *m V = U *m diag_mx S.
Proof. by rewrite (sv_M H) -mulmxA (sv_V H) mulmx1. Qed.
Lemma mul_UM : (conjm U)^T *m M = diag_mx S *m (conjm V)^T.
Proof. by rewrite (sv_M H) !mulmxA (sv_U H) mul1mx. Qed.

Lemma conj_pad a (A : 'M[C]_(a, m)) : conjm (pad_cols Hk t A) = pad_cols Hk t (conjm A).
Proof. apply/matrixP => i j. rewrite !mxE. case: ifP => // _. exact: conjC0. Qed.

Lemma svd_truncates : trunc_svd M (pad_cols Hk t U) (pad_cols Hk t S) (pad_cols Hk t V) t.
Proof.
split.
- move=> i j Hij. rewrite !mxE. case: ifP => Hj; case: ifP => Hi //; try exact: (sv_nneg H).
  + exact: (sv_desc H).
  + by rewrite (leq_ltn_trans Hij Hj) in Hi.
- move=> j. rewrite !mxE. case: ifP => // _. exact: (sv_nneg H).
- move=> j Hj. by rewrite !mxE ltnNge Hj.
- move=> i j Hi Hj. have E := sv_U H. move/matrixP: E => /(_ (widen_ord Hk i) (widen_ord Hk j)).
  rewrite !mxE -(inj_eq val_inj) /= => <-. apply: eq_bigr => x _. by rewrite !mxE Hi Hj.
- apply/matrixP => i j. rewrite mul_mx_diag !mxE. have E := mul_MV.
  move/matrixP: E => /(_ i (widen_ord Hk j)). rewrite mul_mx_diag !mxE.
  case: ifP => Hj E; last by rewrite mulr0; apply: big1 => x _; rewrite !mxE Hj mulr0.
  rewrite -E. apply: eq_bigr => x _. by rewrite !mxE Hj.
- apply/matrixP => i j. rewrite mul_diag_mx conj_pad !mxE. have E := mul_UM.
  move/matrixP: E => /(_ (widen_ord Hk i) j). rewrite mul_diag_mx !mxE.
  case: ifP => Hi E; last by rewrite mul0r; apply: big1 => x _; rewrite !mxE Hi mul0r.
  rewrite -E. apply: eq_bigr => x _. by rewrite !mxE Hi.
Qed.

(** keeping all the nonzero values, the padded factors reproduce M *)
Lemma pad_exact (r : 'rV[C]_k.+1) : (forall j : 'I_m, (k.+1 <= j)%N -> S 0 j = 0) ->
  (forall j : 'I_m, (t <= j)%N -> S 0 j = 0) ->
  (forall j : 'I_k.+1, r 0 j = pad_cols Hk t S 0 j) ->
  pad_cols Hk t U *m diag_mx r *m (conjm (pad_cols Hk t V))^T = M.
Proof.
move=> Z1 Z2 Er. rewrite (sv_M H) conj_pad. apply/matrixP => a b. rewrite [LHS]mxE [RHS]mxE.
pose F (j : nat) := if insub j is Some j' then (U *m diag_mx S) a j' * (conjm V)^T j' b else (0 : C).
have FE (j : 'I_m) : (U *m diag_mx S) a j * (conjm V)^T j b = F j by rewrite /F valK.
rewrite [RHS](eq_bigr (fun j : 'I_m => F j)); last by move=> j _; rewrite FE.
rewrite [LHS](eq_bigr (fun j : 'I_k.+1 => F j)).
- rewrite (big_ord_widen _ F Hk) big_mkcond. apply: eq_bigr => j _. case: ifP => // Hj.
  rewrite -FE mul_mx_diag !mxE Z1 ?mulr0 ?mul0r //. by rewrite leqNgt Hj.
- move=> j _. rewrite -[nat_of_ord j]/(nat_of_ord (widen_ord Hk j)) -FE !mul_mx_diag !mxE Er !mxE.
  case: ifP => Hj //. by rewrite Z2 ?mulr0 ?mul0r // leqNgt Hj.
Qed.
End Q.

Section Main.
Variable C : numClosedFieldType.
Variables (n m k : nat) (reltol : C) (R Rt : 'M[C]_(n, m)) (U : 'M[C]_m) (S : 'rV[C]_m) (V : 'M[C]_m).
Variables (Hk : (k.+1 <= m)%N) (t : nat).
Hypothesis tol0 : 0 <= reltol.
Hypothesis H : is_svd (R^T *m Rt) U S V.
Notation pU := (pad_cols Hk t U).
Notation pS := (pad_cols Hk t S).
Notation pV := (pad_cols Hk t V).

Lemma main_exact : (forall j : 'I_m, ((k.+1 <= j) || (t <= j))%N -> S 0 j = 0) ->
  (forall j : 'I_k.+1, pS 0 j = 0 \/ reltol < pS 0 j / pS 0 0) ->
  R^T *m (projs_full reltol R Rt pU pS pV).2 *m (projs_full reltol R Rt pU pS pV).1^T *m Rt = R^T *m Rt.
Proof.
move=> Z K. rewrite (insert_full tol0 (svd_truncates H Hk t)).
apply: (pad_exact H) => j.
- by move=> Hj; apply: Z; rewrite Hj.
- by move=> Hj; apply: Z; rewrite Hj orbT.
- rewrite [LHS]mxE. case: ifP => // Hf. case: (K j) => [->//|]. by rewrite Hf.
Qed.
End Main.
