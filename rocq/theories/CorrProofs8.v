(** The correlation functions of two-site operators along the strip: choice of the inner dimensions. *)
From Verif Require Import Base BaseLemmas Lattice Tensor TensorLemmas Net NetSpec NetProofs NetProofs2 NetProofs3 Corners CornersSpec CornersProofs Rdm RdmSpec RdmProofs Corr CorrSpec CorrProofs CorrProofs2 CorrProofs3 CorrProofs4 CorrProofs5 CorrProofs6 CorrProofs7.
From Verif Require Ctm.
From Coq Require Import Ring ArithRing Field Permutation.
Open Scope list_scope.
Open Scope nat_scope.
Open Scope res_scope.

(** only the bonds of the network matter *)
Section Ext.
Context {K : Type} (z o : K) (add mul : K -> K -> K).
Variables D D' : nat -> nat.
Lemma ldim_ext t : (forall q, In q (bonds t) -> D q = D' q) -> ldim D t = ldim D' t.
Proof. induction t as [l|a IHa b IHb]; cbn; intros H; [apply H; now left|]. rewrite IHa, IHb; [reflexivity| |]; intros q Hq; apply H, in_app_iff; auto. Qed.
Lemma lval_ext s t : (forall q, In q (bonds t) -> D q = D' q) -> lval D s t = lval D' s t.
Proof. induction t as [l|a IHa b IHb]; cbn; intros H; [reflexivity|]. rewrite IHa, IHb, (ldim_ext b); [reflexivity| | |]; intros q Hq; apply H, in_app_iff; auto. Qed.
Lemma product_ext (net : @network K) s : (forall q, In q (nvars net) -> D q = D' q) -> product D z o mul net s = product D' z o mul net s.
Proof. intros H. unfold product. f_equal. apply map_ext_in. intros f Hf. f_equal. apply map_ext_in. intros t Ht. apply lval_ext. intros q Hq. apply H.
  unfold nvars. apply in_flat_map. exists f. split; [exact Hf|]. apply in_flat_map. exists t. now split. Qed.
Lemma sum_ext ls (G G' : (nat -> nat) -> K) : (forall q, In q ls -> D q = D' q) -> (forall s, G s = G' s) -> forall s, sum_over D z add ls G s = sum_over D' z add ls G' s.
Proof. intros H HG. induction ls as [|l ls IH]; intros s; cbn; [apply HG|]. rewrite (H l) by now left. f_equal. apply map_ext. intros i. apply IH. intros q Hq. apply H. now right. Qed.
Lemma value_ext (net : @network K) : (forall q, In q (nvars net) -> D q = D' q) -> value D z o add mul net = value D' z o add mul net.
Proof. intros H. unfold value. apply sum_ext.
  - intros q Hq. apply H. apply In_inner in Hq. exact (proj1 Hq).
  - intros s. now apply product_ext. Qed.
Lemma fits_ext (net : @network K) : (forall q, In q (nvars net) -> D q = D' q) -> fits D net -> fits D' net.
Proof. intros H HF. unfold fits in *. rewrite Forall_forall in *. intros f Hf. destruct (HF f Hf) as [W Hd]. split; [exact W|]. rewrite Hd. apply map_ext_in. intros t Ht. apply ldim_ext.
  intros q Hq. apply H. unfold nvars. apply in_flat_map. exists f. split; [exact Hf|]. apply in_flat_map. exists t. now split. Qed.
End Ext.

Section Main.
Context {K : Type} (z o : K) (add mul : K -> K -> K) (cj : K -> K) (sub : K -> K -> K) (opp : K -> K) (div : K -> K -> K) (inv : K -> K).
Hypothesis FT : field_theory z o add mul sub opp div inv eq.
Variable maxabs : tensor K -> K.
Hypothesis MA : forall t, maxabs t = z -> forall ix v, tget t ix = Some v -> v = z.
Notation ten := (tensor K).
Variable svd : ten -> res (ten * list K * ten).
Hypothesis SV : svd_exact z add mul cj svd.
Variables (st : ipeps ten) (e : Ctm.envt ten) (As : coord -> ten) (Cs Ts : coord -> coord -> ten).
Hypothesis HS : sees st e As Cs Ts.

(** the halves of an operator *)
Definition pick_l (op : ten) : ten := match split_op z o add mul cj svd true op with Ok (l, _) => l | Err _ => mkT [] [] end.
Definition pick_r (op : ten) : ten := match split_op z o add mul cj svd true op with Ok (_, r) => r | Err _ => mkT [] [] end.
Definition pick_L (op : ten) : nat := Nat.max 1 (nth 2 (tdims (pick_l op)) 0).
Definition Dm (D : nat -> nat) (op1 : ten) (op2 : nat -> ten) (k : nat) : nat :=
  if k mod 16 =? 12 then (if k / 16 =? 2 then pick_L op1 else pick_L (op2 (k / 16 - 4))) else D k.
Lemma Dm_plain D op1 op2 q : plain q -> D q = Dm D op1 op2 q.
Proof. intros H. unfold Dm. rewrite (proj2 (Nat.eqb_neq _ _) H). reflexivity. Qed.
Lemma div_mbond n : mbond n / 16 = S n.
Proof. unfold mbond, base. rewrite (Nat.mul_comm 16), Nat.div_add_l by lia. rewrite Nat.div_small; lia. Qed.
Lemma mod_mbond n : mbond n mod 16 = 12.
Proof. unfold mbond. apply mod_base. lia. Qed.
Lemma Dm_first D op1 op2 : Dm D op1 op2 (mbond 1) = pick_L op1.
Proof. unfold Dm. rewrite mod_mbond, div_mbond. reflexivity. Qed.
Lemma Dm_second D op1 op2 j : Dm D op1 op2 (mbond (S (j + 2))) = pick_L (op2 j).
Proof. unfold Dm. rewrite mod_mbond, div_mbond. replace (S (S (j + 2)) =? 2) with false by (symmetry; apply Nat.eqb_neq; lia). change (12 =? 12) with true; cbn iota; now replace (S (S (j + 2)) - 4) with j by lia. Qed.
Lemma Dm_nonzero D op1 op2 : (forall k, D k <> 0) -> forall k, Dm D op1 op2 k <> 0.
Proof. intros H k. unfold Dm, pick_L. destruct (k mod 16 =? 12); [destruct (k / 16 =? 2); lia|apply H]. Qed.

Lemma op_plain i (op : ten) q : In q (nvars [(op, op_legs' i)]) -> plain q.
Proof. unfold nvars, op_legs'. cbn [flat_map snd bonds app In]. unfold ketb, brab. intros [<-|[<-|[<-|[<-|[]]]]]; apply plain_base; lia. Qed.
Lemma dimer_plain d c n (O1 O2 : ten) q : 2 <= n -> In q (nvars (dimer_net cj As Cs Ts (None, None) d c n O1 O2)) -> plain q.
Proof. intros Hn. unfold dimer_net. rewrite nvars_app, in_app_iff. intros [H|H]; [now apply strip_plain in H|].
  change (In q (nvars ([(O1, op_legs' 0)] ++ [(O2, [V (brab (n - 2)); V (brab (n - 1)); V (ketb (n - 2)); V (ketb (n - 1))])]))) in H.
  rewrite nvars_app, in_app_iff in H. destruct H as [H|H]; [exact (op_plain _ _ _ H)|]. replace (n - 1) with (S (n - 2)) in H by lia. exact (op_plain _ _ _ H). Qed.

Lemma splits_pick D' i op op' p : p <> 0 -> tdims op = [p; p; p; p] -> is_transpose2 op op' -> fits D' [(op', op_legs' i)] -> D' (mbond (S i)) = pick_L op ->
  splits z o add mul cj svd D' i op (pick_l op) (pick_r op).
Proof. intros Hp Ho (W & W' & (d1 & d2 & d3 & d4 & Hd & Hd') & HT) HF HL.
  destruct (split_ok z o add mul cj (SR_of_field FT) svd SV op p Hp W Ho) as (l & r & L & ES & HL0 & Wl & Wr & Dl & Dr & HV).
  assert (El : pick_l op = l) by (unfold pick_l; now rewrite ES). assert (Er : pick_r op = r) by (unfold pick_r; now rewrite ES).
  assert (EL : pick_L op = L) by (unfold pick_L; rewrite El, Dl; cbn [nth]; lia).
  rewrite El, Er. apply (splits_of z o add mul cj sub opp div inv FT svd D' i op p l r L); try assumption.
  - apply fits_cons in HF. destruct HF as [[_ HF] _]. apply fits_cons. split; [|constructor]. split; [exact W|].
    rewrite Hd' in HF. cbn [op_legs' map ldim] in HF. injection HF as E1 E2 E3 E4. cbn [op_legs map ldim]. congruence.
  - congruence. Qed.

Lemma corrf_2sOH2sOH_ok D d c op1 op1' op2 op2' dist :
  let norm n := norm_net cj As Cs Ts (None, None) d c n in
  let dimer n r := dimer_net cj As Cs Ts (None, None) d c n op1' (op2' r) in
  let val := value D z o add mul in
  let square op := exists p, p <> 0 /\ tdims op = [p; p; p; p] in
  (forall k, D k <> 0) -> (0 <= dist)%Z -> is_transpose2 op1 op1' -> (forall r, is_transpose2 (op2 r) (op2' r)) -> square op1 -> (forall r, square (op2 r)) ->
  (forall r, (Z.of_nat r <= dist)%Z -> fits D (norm (r + 4)) /\ fits D (dimer (r + 4) r) /\ val (norm (r + 4)) <> z) ->
  corrf_2sOH2sOH_E1 z o add mul cj st e svd div maxabs c (dvec d) op1 op2 dist =
  Ok (map (fun r => div (val (dimer (r + 4) r)) (val (norm (r + 4)))) (seq 0 (Z.to_nat (dist + 1)))).
Proof. cbn zeta. intros HD Hd HT1 HT2 (p1 & Hp1 & Hs1) Hs2 HF. unfold corrf_2sOH2sOH_E1.
  set (D' := Dm D op1 op2). assert (HD' : forall k, D' k <> 0) by (apply Dm_nonzero; exact HD).
  assert (FN : forall r, (Z.of_nat r <= dist)%Z -> fits D' (norm_net cj As Cs Ts (None, None) d c (r + 4))).
  { intros r Hr. destruct (HF r Hr) as (X & _ & _). revert X. apply fits_ext. intros q Hq. apply Dm_plain. now apply strip_plain in Hq. }
  assert (FC : forall r, (Z.of_nat r <= dist)%Z -> fits D' (dimer_net cj As Cs Ts (None, None) d c (r + 4) op1' (op2' r))).
  { intros r Hr. destruct (HF r Hr) as (_ & X & _). revert X. apply fits_ext. intros q Hq. apply Dm_plain. apply dimer_plain in Hq; [exact Hq|lia]. }
  assert (VN : forall r, value D' z o add mul (norm_net cj As Cs Ts (None, None) d c (r + 4)) = value D z o add mul (norm_net cj As Cs Ts (None, None) d c (r + 4))).
  { intros r. symmetry. apply value_ext. intros q Hq. apply Dm_plain. now apply strip_plain in Hq. }
  assert (VC : forall r, value D' z o add mul (dimer_net cj As Cs Ts (None, None) d c (r + 4) op1' (op2' r)) = value D z o add mul (dimer_net cj As Cs Ts (None, None) d c (r + 4) op1' (op2' r))).
  { intros r. symmetry. apply value_ext. intros q Hq. apply Dm_plain. apply dimer_plain in Hq; [exact Hq|lia]. }
  assert (H0 : (Z.of_nat 0 <= dist)%Z) by lia.
  destruct (fits_dimer cj As Cs Ts D' d c 0 op1' (op2' 0) (FC 0 H0)) as (FA & FB & _ & _ & F1 & _).
  destruct (fits_norm_last cj As Cs Ts D' d c 4 (FN 0 H0)) as (_ & FF). assert (FA0 := fits_norm_at cj As Cs Ts D' d c 4 0 ltac:(lia) (FN 0 H0)). assert (FB0 := fits_norm_at cj As Cs Ts D' d c 4 1 ltac:(lia) (FN 0 H0)).
  assert (S1 : splits z o add mul cj svd D' 0 op1 (pick_l op1) (pick_r op1)).
  { apply (splits_pick D' 0 op1 op1' p1 Hp1 Hs1 HT1 F1). apply Dm_first. }
  assert (S2 : forall j, (Z.of_nat j <= dist)%Z -> splits z o add mul cj svd D' (j + 2) (op2 j) (pick_l (op2 j)) (pick_r (op2 j))).
  { intros j Hj. destruct (Hs2 j) as (p & Hp & Hs). destruct (fits_dimer cj As Cs Ts D' d c j op1' (op2' j) (FC j Hj)) as (_ & _ & _ & _ & _ & F2).
    apply (splits_pick D' (j + 2) (op2 j) (op2' j) p Hp Hs (HT2 j) F2). apply Dm_second. }
  assert (SR := SR_of_field FT).
  destruct (opening z o add mul cj SR st e As Cs Ts HS D' d c None FF) as (E & XE & GE').
  destruct (grow2 z o add mul cj sub opp div inv FT svd st e As Cs Ts HS D' HD' d c 0 _ _ op1 _ _ GE' S1 FA FB) as (E1 & X1 & G1).
  destruct (grow2_none z o add mul cj sub opp div inv FT svd st e As Cs Ts HS D' d c 0 _ _ GE' FA0 FB0) as (E0 & X0 & G0).
  rewrite XE; cbn [bind]. cbn [along] in X1, X0. rewrite X1; cbn [bind]. rewrite X0; cbn [bind]. replace (dist + 1 <? 0)%Z with false by (symmetry; apply Z.ltb_ge; lia).
  assert (ON : o <> z) by exact (F_1_neq_0 FT).
  assert (G0' : holds z o add mul D' (base (0 + 2)) (rim (base (0 + 2))) (scal o :: P0 cj As Cs Ts None d c 1) E0).
  { apply (good_scal_one z o add mul SR). unfold P0, cols. cbn [seq flat_map]. rewrite app_nil_r. rewrite app_assoc. exact G0. }
  assert (G1' : holds z o add mul D' (base (0 + 2)) (rim (base (0 + 2))) (scal o :: Q1 cj As Cs Ts d c (pick_l op1) (pick_r op1) 0) E1).
  { apply (good_scal_one z o add mul SR). unfold Q1, cols. cbn [seq flat_map]. rewrite app_nil_r. rewrite app_assoc. exact G1. }
  change (cadd (cadd c (dvec d)) (dvec d)) with (along c d (0 + 2)).
  rewrite (loop2_ok z o add mul cj sub opp div inv FT maxabs MA svd st e As Cs Ts HS D' HD' d c op1 op1' op2 op2' (pick_l op1) (pick_r op1) (fun j => pick_l (op2 j)) (fun j => pick_r (op2 j))
    HT1 HT2 S1 (Z.to_nat (dist + 1)) 0 o E0 E1 ON G0' G1').
  - f_equal. apply map_ext. intros r. now rewrite VN, VC.
  - intros j Hj. assert (Hj' : (Z.of_nat j <= dist)%Z) by lia. split; [now apply S2|]. split; [now apply FN|]. split; [now apply FC|]. rewrite VN. exact (proj2 (proj2 (HF j Hj'))). Qed.
End Main.
