(** Growing a strip column by column: the loop of the correlation functions. *)
From Verif Require Import Base BaseLemmas Tensor TensorLemmas Net NetSpec NetProofs NetProofs2 NetProofs3 Corners CornersSpec Corr CorrSpec CorrC4v CorrC4vSpec CorrProofs CorrProofs3 CorrProofs4 CorrProofs5.
From Coq Require Import Ring ArithRing Field Permutation.
Open Scope list_scope.
Open Scope nat_scope.
Open Scope res_scope.

Lemma rims_sh h b k : map (rleg (sh b)) (rims h k) = rims h (b + k).
Proof. unfold rims, b_top, b_bot, b_hk, b_hb, sh, FF. cbn [map rleg]. rewrite map_app, map_map. cbn [map rleg]. rewrite Nat.add_assoc. f_equal. f_equal.
  apply map_ext. intros j. cbn [rleg]. now rewrite !Nat.add_assoc. Qed.
Lemma rims_low h b l : h <= 3 -> In l (flat_map bonds (rims h b)) -> b <= l < b + 32.
Proof. intros Hh. unfold rims, b_top, b_bot, b_hk, b_hb, FF. cbn [flat_map bonds app In]. rewrite flat_map_app, in_app_iff. cbn [flat_map bonds app In]. intros [<-|[H|[<-|[]]]]; [lia| |lia].
  apply in_flat_map in H. destruct H as (t & Ht & Hl). apply in_map_iff in Ht. destruct Ht as (j & <- & Hj). apply in_seq in Hj. cbn [bonds app In] in Hl. lia. Qed.
Lemma at_col_add i k : at_col (i + k) = at_col i + 32 * k.
Proof. unfold at_col. lia. Qed.

Section P.
Context {K : Type} (z o : K) (add mul : K -> K -> K) (sub : K -> K -> K) (opp : K -> K) (div : K -> K -> K) (inv : K -> K).
Hypothesis FT : field_theory z o add mul sub opp div inv eq.
Notation SR := (SR_of_field FT).
Add Field KF : FT.
Variable maxabs : tensor K -> K.
Hypothesis MA : forall t, maxabs t = z -> forall ix v, tget t ix = Some v -> v = z.
Notation ten := (tensor K).
Notation network := (@network K).
Variable D : nat -> nat.
Notation isc := (is_contraction D z o add mul).
Notation val := (value D z o add mul).
Lemma value_perm (n1 n2 : network) : Permutation n1 n2 -> val n1 = val n2.
Proof. intros P. unfold value. rewrite (so_perm z o add mul SR D _ _ (nvars n1) _ (inner_perm _ _ _ P) (product_dep z o mul D n1)).
  apply so_ext. intros s' _. now apply (product_perm z o add mul SR). Qed.

Variable h : nat.
Hypothesis Hh : h <= 3.
Definition good (i : nat) (N : network) (E : ten) : Prop := holds z o add mul D (at_col i) (rims h (at_col i)) N E.
Definition grows (f : ten -> res ten) (X : nat -> network) (k : nat) : Prop :=
  forall i N E, good i N E -> fits D (X i) -> exists M, f E = Ok M /\ good (i + k) (N ++ X i) M.
Definition ends (f : ten -> res ten) (Y : nat -> network) : Prop :=
  forall i N E, good i N E -> fits D (Y i) -> exists M, f E = Ok M /\ isc (N ++ Y i) [] M.

(** from the columns at 0 *)
Lemma grows_of k f N0 X : (forall i, X i = rnet (sh (at_col i)) N0) ->
  (forall b E, let D' := Df D (sh b) in fits D' ((E, rims h 0) :: N0) -> exists M, f E = Ok M /\ is_contraction D' z o add mul ((E, rims h 0) :: N0) (rims h (32 * k)) M) ->
  (forall l, In l (nvars N0) -> l < 32 * k \/ In l (flat_map bonds (rims h (32 * k)))) -> incl (flat_map bonds (rims h (32 * k))) (nvars N0) -> 1 <= k ->
  grows f X k.
Proof. intros HX HL HB HI Hk i N E HG HF. set (b := at_col i) in *.
  assert (EX : rnet (sh b) ((E, rims h 0) :: N0) = (E, rims h b) :: X i) by (rewrite ren_cons, rims_sh, Nat.add_0_r, HX; reflexivity).
  destruct (at_b z o add mul SR D ((E, rims h 0) :: N0) b (rims h (32 * k)) (f E) (HL b E)) as (M & EM & IM).
  { rewrite EX. apply fits_cons. split; [exact (holds_fits z o add mul D _ _ _ _ HG)|exact HF]. }
  rewrite EX, rims_sh in IM. exists M. split; [exact EM|]. unfold good. rewrite at_col_add. fold b.
  assert (NV : forall l, In l (nvars (X i)) -> b <= l /\ (l < b + 32 * k \/ In l (flat_map bonds (rims h (b + 32 * k))))).
  { intros l Hl. rewrite HX in Hl. rewrite nvars_ren in Hl. apply in_map_iff in Hl. destruct Hl as (q & <- & Hq). fold b. unfold sh. split; [lia|].
    destruct (HB q Hq) as [H|H]; [left; lia|]. right. rewrite <- rims_sh, fbonds_ren. apply in_map_iff. now exists q. }
  eapply (holds_join z o add mul SR D); [exact HG|exact IM| | | | |lia].
  - intros l Hl. now apply NV in Hl.
  - intros l Hl. apply rims_low in Hl; [lia|exact Hh].
  - intros l Hl. unfold nvars in Hl. cbn [flat_map snd] in Hl. apply in_app_iff in Hl. destruct Hl as [Hl|Hl].
    + left. fold b in Hl. apply rims_low in Hl; [lia|exact Hh].
    + apply NV in Hl. tauto.
  - intros l Hl. rewrite HX, nvars_ren. fold b. rewrite <- rims_sh, fbonds_ren in Hl. apply in_map_iff in Hl. destruct Hl as (q & <- & Hq). apply in_map_iff. exists q. split; [reflexivity|now apply HI]. Qed.
Lemma ends_of f N0 Y : (forall i, Y i = rnet (sh (at_col i)) N0) ->
  (forall b E, let D' := Df D (sh b) in fits D' ((E, rims h 0) :: N0) -> exists M, f E = Ok M /\ is_contraction D' z o add mul ((E, rims h 0) :: N0) [] M) -> ends f Y.
Proof. intros HX HL i N E HG HF. set (b := at_col i) in *.
  assert (EX : rnet (sh b) ((E, rims h 0) :: N0) = (E, rims h b) :: Y i) by (rewrite ren_cons, rims_sh, Nat.add_0_r, HX; reflexivity).
  destruct (at_b z o add mul SR D ((E, rims h 0) :: N0) b [] (f E) (HL b E)) as (M & EM & IM).
  { rewrite EX. apply fits_cons. split; [exact (holds_fits z o add mul D _ _ _ _ HG)|exact HF]. }
  rewrite EX in IM. cbn [map] in IM. exists M. split; [exact EM|]. destruct HG as [HN [HB HI]].
  apply (isc_sub z o add mul SR D N (Y i) (rims h b) [] E M HN IM HI). intros l Hl. apply In_inner in Hl. destruct Hl as [Hl Hn].
  destruct (HB l Hl) as [H|H]; [|contradiction]. split; [|intros []]. intros X. rewrite HX, nvars_ren in X. apply in_map_iff in X. destruct X as (q & <- & _). unfold sh in H. fold b in H. lia. Qed.
Lemma ends_after f g X Y : grows f X 1 -> ends g Y -> ends (fun E => y <- f E ;; g y) (fun i => X i ++ Y (S i)).
Proof. intros H1 H2 i N E HG HF. apply fits_app in HF. destruct HF as [F1 F2]. destruct (H1 i N E HG F1) as (M & EM & GM). rewrite Nat.add_1_r in GM. destruct (H2 (S i) _ M GM F2) as (M' & EM' & IM).
  exists M'. rewrite EM. cbn [bind]. split; [exact EM'|]. now rewrite app_assoc. Qed.
Lemma good_leaf i N E : good i N E -> good i [(E, rims h (at_col i))] E.
Proof. intros [(W & Hd & _) _]. split; [apply (isc_leaf z o add mul SR); assumption|]. unfold below, nvars. cbn [flat_map snd]. rewrite app_nil_r. split; [intros q Hq; now right|apply incl_refl]. Qed.
Lemma good_one i N E : good i N E -> good i (scal o :: N) E.
Proof. intros [H1 H2]. split; [now apply (isc_scal_one z o add mul SR)|exact H2]. Qed.
Lemma good_down i N E c m : m <> z -> good i (scal c :: N) E -> good i (scal (mul (inv m) c) :: N) (rescale div m E).
Proof. intros Hm [H1 H2]. rewrite (rescale_eq z o add mul sub opp div inv FT) by exact Hm. split; [|exact H2].
  apply (isc_scal_mul z o add mul SR), (isc_tmap z o add mul SR). exact H1. Qed.

Definition cols (X : nat -> network) (c k : nat) : network := flat_map X (seq c k).
Lemma cols_S X c k : cols X c (S k) = cols X c k ++ X (c + k).
Proof. unfold cols. rewrite seq_S, flat_map_app. cbn [flat_map]. now rewrite app_nil_r. Qed.
Lemma loop_ok ins tm last last0 op2 X (XO : nat -> nat -> network) w Y Y0 c N0 N1 :
  grows tm X 1 -> (forall r, grows (ins (op2 r)) (XO r) w) -> ends last Y -> ends last0 Y0 ->
  let num r := N1 ++ cols X c r ++ XO r (c + r) ++ Y (c + r + w) in
  let den r := N0 ++ cols X c (S r) ++ Y0 (S (c + r)) in
  forall n r l E0 E1, l <> z -> good (c + r) (scal l :: N0 ++ cols X c r) E0 -> good (c + r) (scal l :: N1 ++ cols X c r) E1 ->
  (forall k, r <= k < r + n -> fits D (num k) /\ fits D (den k) /\ val (den k) <> z) ->
  loop z div maxabs ins tm last last0 op2 n r E0 E1 = Ok (map (fun k => div (val (num k)) (val (den k))) (seq r n)).
Proof. intros HX HO HY HY0 num den. induction n as [|n IH]; intros r l E0 E1 Hl HG0 HG1 HF; [reflexivity|].
  destruct (HF r) as (FN & FD & VD); [lia|]. unfold num in FN. unfold den in FD. apply fits_app in FN. destruct FN as [_ FN]. apply fits_app in FN. destruct FN as [_ FN]. apply fits_app in FN. destruct FN as [FO FY].
  apply fits_app in FD. destruct FD as [_ FD]. apply fits_app in FD. destruct FD as [FX FY0]. rewrite cols_S in FX. apply fits_app in FX. destruct FX as [_ FX].
  cbn [loop].
  destruct (HO r (c + r) _ _ HG1 FO) as (E12 & X12 & G12).
  destruct (HX (c + r) _ _ HG0 FX) as (E0' & X0 & G0). destruct (HX (c + r) _ _ HG1 FX) as (E1' & X1 & G1). rewrite Nat.add_1_r in G0, G1.
  destruct (HY (c + r + w) _ _ G12 FY) as (M12 & Y12 & I12). destruct (HY0 (S (c + r)) _ _ G0 FY0) as (M00 & Y00 & I00).
  rewrite X12; cbn [bind]. rewrite X0; cbn [bind]. rewrite X1; cbn [bind]. rewrite Y12; cbn [bind]. rewrite Y00; cbn [bind].
  assert (V12 : isc (scal l :: num r) [] M12). { unfold num. rewrite app_comm_cons. rewrite !app_comm_cons in I12. rewrite <- !app_assoc in I12. exact I12. }
  assert (V00 : isc (scal l :: den r) [] M00). { unfold den. rewrite cols_S. rewrite app_comm_cons. rewrite !app_comm_cons in I00. rewrite <- !app_assoc in I00. rewrite <- !app_assoc. exact I00. }
  rewrite (scalar_ok z o add mul D _ _ V12), (scalar_ok z o add mul D _ _ V00). cbn [bind]. rewrite !(value_scal z o add mul SR).
  assert (Hm : maxabs E0' <> z).
  { destruct (HY0 (S (c + r)) _ _ (good_leaf _ _ _ G0) FY0) as (M00' & Y00' & I00'). rewrite Y00 in Y00'. injection Y00' as <-.
    apply (max_nonzero z o add mul sub opp div inv FT maxabs MA D E0' (rims h (at_col (S (c + r)))) (Y0 (S (c + r)))). intros H.
    assert (Y1 := isc_value z o add mul D _ _ I00'). assert (Y2 := isc_value z o add mul D _ _ V00). destruct Y1 as [_ Y1]. destruct Y2 as [_ Y2].
    rewrite Y1 in Y2. injection Y2 as Y2. cbn [app] in Y2. rewrite H, (value_scal z o add mul SR) in Y2. symmetry in Y2. exact (mul_nonzero z o add mul sub opp div inv FT _ _ Hl VD Y2). }
  rewrite (IH (S r) (mul (inv (maxabs E0')) l)).
  - cbn [bind seq map]. do 2 f_equal. field. split; assumption.
  - apply (mul_nonzero z o add mul sub opp div inv FT); [apply (inv_nonzero z o add mul sub opp div inv FT); exact Hm|exact Hl].
  - rewrite Nat.add_succ_r. apply good_down; [exact Hm|]. rewrite cols_S, app_assoc. exact G0.
  - rewrite Nat.add_succ_r. apply good_down; [exact Hm|]. rewrite cols_S, app_assoc. exact G1.
  - intros k Hk. apply HF. lia. Qed.
End P.
