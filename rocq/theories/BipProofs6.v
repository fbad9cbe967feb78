(** J-Q, coupled ladders: Hamiltonians of rotation-invariant bonds. *)
From Coq Require Import Lia Ring Permutation.
From Verif Require Import Base BaseLemmas Tensor TensorLemmas Plaq PlaqSpec PlaqProofs PlaqProofs2 PlaqProofs3 PlaqProofs4 PlaqProofs6 PlaqProofs7 Bip BipSpec BipProofs BipProofs2 BipProofs3 BipProofs4 BipProofs5.
Open Scope list_scope.
Open Scope Z_scope.
Open Scope res_scope.

Section Pairs.
Context {K : Type} (k0 k1 : K) (kadd kmul ksub : K -> K -> K) (kopp : K -> K).
Hypothesis Kr : ring_theory k0 k1 kadd kmul ksub kopp (@eq K).
Add Ring KringB6 : Kr.
Notation "a +k b" := (kadd a b) (at level 50, left associativity).
Notation "a -k b" := (ksub a b) (at level 50, left associativity).
Notation "a *k b" := (kmul a b) (at level 40, left associativity).
Notation sum l := (fold_right kadd k0 l).
Notation ofnat := (ofnat k0 k1 kadd).
Notation dot := (dot k0 kadd kmul).
Variables (L M : Z) (d : nat).
Hypotheses (HL : 2 <= L) (HM : 2 <= M) (EL : Z.even L = true) (EM : Z.even M = true).
Notation sites := (sites L M).
Notation wrap := (wrap L M).
Notation on := (on k0 L M).
Notation N := (ofnat (length sites)).
Variables (flip : nat -> nat) (sg : nat -> K).
Hypothesis SF : signed_flip k1 kmul d flip sg.
Notation turned := (turned k1 kmul flip sg).
Notation rotation_invariant := (rotation_invariant k1 kmul d flip sg).
Variable E : @operator K -> K.
Hypothesis HE : expectation kadd kmul d E.
Notation rotated := (rotated k1 kmul L M flip sg E).
Notation loc2 := (loc2 k0).
Notation loc1 := (loc1 k0).
Notation loc4 := (loc4 k0).
Notation o := (0, 0).
Notation reduced := (reduced k0 kadd kmul L M d E).
Notation HR := (rotated_expectation k0 k1 kadd kmul ksub kopp Kr L M d flip sg SF E HE).
Notation R_eq := (E_eq kadd kmul d rotated HR).
Notation R_add := (E_add kadd kmul d rotated HR).
Notation R_scale := (E_scale kadd kmul d rotated HR).
Notation R_sum := (E_sum k0 k1 kadd kmul ksub kopp Kr d rotated HR).
Notation E_sum := (E_sum k0 k1 kadd kmul ksub kopp Kr d E HE).
Notation E_eq := (E_eq kadd kmul d E HE).
Notation E_add := (E_add kadd kmul d E HE).
Notation E_scale := (E_scale kadd kmul d E HE).
Notation E_ext := (E_ext k0 kadd kmul L M d E HE).
Notation twice := (turned_twice k0 k1 kadd kmul ksub kopp Kr d flip sg SF).
Notation rotated_on := (rotated_on k0 k1 kadd kmul ksub kopp Kr L M d HL HM EL EM flip sg SF E HE).

(** [A'] is [A] with one of the two spins rotated *)
Definition half_turned (A A' : tensor K) : Prop := forall i a, within d 2 i -> within d 2 a -> loc2 A' i a = turned [true; false] (loc2 A) i a.
Lemma other_half A A' i a : rotation_invariant 2 (loc2 A) -> half_turned A A' -> within d 2 i -> within d 2 a -> loc2 A' i a = turned [false; true] (loc2 A) i a.
Proof.
  intros HA H Hi Ha. rewrite H by assumption.
  pose proof (twice [false; true] [true; true] (loc2 A) 2%nat i a eq_refl eq_refl Hi Ha) as T. cbn [combine map fst snd xorb] in T. rewrite <- T.
  unfold BipSpec.turned at 1. rewrite HA; [reflexivity | |].
  - apply within2 in Hi. destruct Hi as (x & y & -> & ? & ?). split; [reflexivity|]. unfold flips. cbn [combine map fst snd]. repeat (apply Forall_cons; [try assumption; now apply (flip_lt k1 kmul d flip sg SF)|]). constructor.
  - apply within2 in Ha. destruct Ha as (x & y & -> & ? & ?). split; [reflexivity|]. unfold flips. cbn [combine map fst snd]. repeat (apply Forall_cons; [try assumption; now apply (flip_lt k1 kmul d flip sg SF)|]). constructor.
Qed.
Lemma either_half A A' b i a : rotation_invariant 2 (loc2 A) -> half_turned A A' -> within d 2 i -> within d 2 a -> loc2 A' i a = turned [b; negb b] (loc2 A) i a.
Proof. intros HA H Hi Ha. destruct b; [now apply H | now apply other_half]. Qed.
Lemma rotated_pair A A' p q : rotation_invariant 2 (loc2 A) -> half_turned A A' -> odd q = negb (odd p) -> wrap p <> wrap q ->
  rotated (on [p; q] (loc2 A)) = E (on [p; q] (loc2 A')).
Proof.
  intros HA H Ho Hw. rewrite rotated_on by (apply nd2; exact Hw). apply (E_ext [p; q]). intros i a Hi Ha. cbn [map]. rewrite Ho. symmetry. now apply either_half.
Qed.
Lemma rotated_quad Q Q' p q r t : rotation_invariant 2 (loc2 Q) -> half_turned Q Q' -> odd q = negb (odd p) -> odd t = negb (odd r) -> NoDup (map wrap [p; q; r; t]) ->
  rotated (on [p; q; r; t] (prod22 k0 kmul Q Q)) = E (on [p; q; r; t] (prod22 k0 kmul Q' Q')).
Proof.
  intros HQ H Ho Ho' Hw. rewrite rotated_on by exact Hw. apply (E_ext [p; q; r; t]). intros i a [Li Fi] [La Fa]. cbn [map]. rewrite Ho, Ho'.
  destruct i as [|i0 [|i1 [|i2 [|i3 [|]]]]]; try discriminate Li. destruct a as [|a0 [|a1 [|a2 [|a3 [|]]]]]; try discriminate La.
  repeat match goal with F : Forall _ (_ :: _) |- _ => apply Forall_cons_iff in F; destruct F as [? F] end.
  assert (T : forall b x y z w, (x < d)%nat -> (y < d)%nat -> (z < d)%nat -> (w < d)%nat -> turned [b; negb b] (loc2 Q) [x; y] [z; w] = loc2 Q' [x; y] [z; w]).
  { intros. symmetry. apply either_half; try assumption; (split; [reflexivity|]; repeat (apply Forall_cons; [assumption|]); constructor). }
  pose proof (T (odd p) i0 i1 a0 a1) as T1. pose proof (T (odd r) i2 i3 a2 a3) as T2. unfold prod22 at 2. rewrite <- T1, <- T2 by assumption.
  unfold BipSpec.turned, signs, flips, prod22. cbn [combine map fold_right fst snd]. ring.
Qed.
Lemma odd_py p : odd (py p) = negb (odd p).
Proof. unfold odd, py. cbn [fst snd]. replace (fst p + (snd p + 1)) with (Z.succ (fst p + snd p)) by lia. now rewrite Z.odd_succ, <- Z.negb_odd. Qed.
Lemma odd_px' p : odd (px p) = negb (odd p).
Proof. unfold odd, px. cbn [fst snd]. replace (fst p + 1 + snd p) with (Z.succ (fst p + snd p)) by lia. now rewrite Z.odd_succ, <- Z.negb_odd. Qed.
Lemma odd_pxy p : odd (pxy p) = odd p.
Proof. change (pxy p) with (px (py p)). now rewrite odd_px', odd_py, Bool.negb_involutive. Qed.
Lemma px_ne p : wrap p <> wrap (px p).
Proof. pose proof (plaq_nodup L M HL HM p) as H. cbn [plaquette map] in H. apply NoDup_cons_iff in H. destruct H as [H _]. intros Q. apply H. rewrite Q. now left. Qed.
Lemma py_ne p : wrap p <> wrap (py p).
Proof. pose proof (plaq_nodup L M HL HM p) as H. cbn [plaquette map] in H. apply NoDup_cons_iff in H. destruct H as [H _]. intros Q. apply H. rewrite Q. right. now left. Qed.
Lemma pair_x A A' p : rotation_invariant 2 (loc2 A) -> half_turned A A' -> rotated (on [p; px p] (loc2 A)) = E (on [p; px p] (loc2 A')).
Proof. intros HA H. apply rotated_pair; auto using odd_px', px_ne. Qed.
Lemma pair_y A A' p : rotation_invariant 2 (loc2 A) -> half_turned A A' -> rotated (on [p; py p] (loc2 A)) = E (on [p; py p] (loc2 A')).
Proof. intros HA H. apply rotated_pair; auto using odd_py, py_ne. Qed.
Lemma bonds_rotated A A' : rotation_invariant 2 (loc2 A) -> half_turned A A' ->
  rotated (osum k0 kadd (bonds_nn L M) (bond k0 L M (loc2 A))) = E (osum k0 kadd (bonds_nn L M) (bond k0 L M (loc2 A'))).
Proof.
  intros HA H. rewrite R_sum, E_sum. apply (sum_map_ext k0 kadd). intros b Hb. unfold bond. unfold bonds_nn, bonds_x, bonds_y in Hb. apply in_app_iff in Hb.
  destruct Hb as [Hb|Hb]; apply in_map_iff in Hb; destruct Hb as (p & <- & _); cbn [fst snd]; [now apply pair_x | now apply pair_y].
Qed.
Lemma jq_rotated j1 q A A' Q Q' : rotation_invariant 2 (loc2 A) -> half_turned A A' -> rotation_invariant 2 (loc2 Q) -> half_turned Q Q' ->
  rotated (H_jq k0 kadd kmul kopp L M j1 q A Q) = E (H_jq k0 kadd kmul kopp L M j1 q A' Q').
Proof.
  intros HA H HQ H'. unfold H_jq. rewrite R_add, !R_scale, E_add, !E_scale, (bonds_rotated A A') by assumption. f_equal. f_equal.
  rewrite R_sum, E_sum. apply (sum_map_ext k0 kadd). intros p _. rewrite R_add, E_add. f_equal; apply rotated_quad; auto using odd_px', odd_py.
  - rewrite odd_pxy, odd_py. now rewrite Bool.negb_involutive.
  - exact (plaq_nodup L M HL HM p).
  - rewrite odd_pxy, odd_px'. now rewrite Bool.negb_involutive.
  - pose proof (plaq_nodup L M HL HM p) as ND. apply (Permutation_NoDup (l := map wrap (plaquette p))); [|exact ND]. apply Permutation_map. unfold plaquette. apply perm_skip, perm_swap.
Qed.
Variable rot : tensor K.
Hypothesis Hrot : rotation_matrix k0 d flip sg rot.
Notation rot_first := (rot_first k0 kadd kmul d rot).
Lemma rot_first_half A : half_turned A (rot_first A).
Proof. intros i a Hi Ha. now apply (rot_first_loc k0 k1 kadd kmul ksub kopp Kr d flip sg SF rot Hrot). Qed.
(** the identity minus a quarter *)
Definition less_quarter (quarter : K) (A Q : tensor K) : Prop := forall i j a b, (i < d)%nat -> (j < d)%nat -> (a < d)%nat -> (b < d)%nat ->
  loc2 Q [i; j] [a; b] = loc2 A [i; j] [a; b] -k quarter *k (if Nat.eqb i a && Nat.eqb j b then k1 else k0).
Lemma loc2_sub (a b : tensor K) i x : twf a -> twf b -> tdims a = [d; d; d; d] -> tdims b = [d; d; d; d] -> within d 2 i -> within d 2 x ->
  loc2 (tsub ksub a b) i x = loc2 a i x -k loc2 b i x.
Proof.
  intros Wa Wb Da Db Hi Hx. apply within2 in Hi, Hx. destruct Hi as (i0 & i1 & -> & ? & ?), Hx as (x0 & x1 & -> & ? & ?). unfold PlaqSpec.loc2, tsub.
  rewrite tget_tzip by congruence.
  destruct (tget_Some a [i0; i1; x0; x1] Wa) as [v ->]; [rewrite Da; repeat (apply Forall2_cons; [assumption|]); constructor|].
  destruct (tget_Some b [i0; i1; x0; x1] Wb) as [w ->]; [rewrite Db; repeat (apply Forall2_cons; [assumption|]); constructor|]. reflexivity.
Qed.
Lemma loc2_quarter quarter i j a b : (i < d)%nat -> (j < d)%nat -> (a < d)%nat -> (b < d)%nat ->
  loc2 (tscl kmul quarter (id_n k0 k1 d 2)) [i; j] [a; b] = quarter *k (if Nat.eqb i a && Nat.eqb j b then k1 else k0).
Proof.
  intros. unfold PlaqSpec.loc2, tscl. rewrite tget_tmap. pose proof (el_id2 k0 k1 d i j a b) as Q. unfold Plaq.el in Q.
  destruct (tget (id_n k0 k1 d 2) [i; j; a; b]) eqn:Et; cbn [option_map]; rewrite <- Q by assumption; [reflexivity | ring].
Qed.
Lemma less_half quarter A Q : less_quarter quarter A Q -> half_turned Q (tsub ksub (rot_first A) (tscl kmul quarter (id_n k0 k1 d 2))).
Proof.
  intros HQ i a Hi Ha. rewrite loc2_sub; try assumption; try reflexivity; try apply twf_tbuild; try (apply twf_tmap, twf_tbuild). rewrite rot_first_half by assumption.
  apply within2 in Hi, Ha. destruct Hi as (i0 & i1 & -> & ? & ?), Ha as (a0 & a1 & -> & ? & ?). rewrite loc2_quarter by assumption.
  unfold BipSpec.turned, signs, flips. cbn [combine map fold_right fst snd]. rewrite HQ by (try assumption; now apply (flip_lt k1 kmul d flip sg SF)). rewrite (flip_eqb k1 kmul d flip sg SF) by assumption.
  destruct (Nat.eqb_spec i0 a0) as [<-|]; cbn [andb]; [|ring]. pose proof (sg_sq k1 kmul d flip sg SF (flip i0) (flip_lt k1 kmul d flip sg SF i0 ltac:(assumption))) as S. destruct (Nat.eqb i1 a1); [ring [S]|ring].
Qed.
Lemma less_inv quarter A Q : rotation_invariant 2 (loc2 A) -> less_quarter quarter A Q -> rotation_invariant 2 (loc2 Q).
Proof.
  intros HA HQ i a Hi Ha. pose proof (HA i a Hi Ha) as T. apply within2 in Hi, Ha. destruct Hi as (i0 & i1 & -> & ? & ?), Ha as (a0 & a1 & -> & ? & ?). revert T.
  unfold BipSpec.turned, signs, flips. cbn [repeat combine map fold_right fst snd]. rewrite !HQ by (try assumption; now apply (flip_lt k1 kmul d flip sg SF)). rewrite !(flip_eqb k1 kmul d flip sg SF) by assumption. intros <-.
  destruct (Nat.eqb_spec i0 a0) as [<-|]; cbn [andb]; [|ring]. destruct (Nat.eqb_spec i1 a1) as [<-|]; cbn [andb]; [|ring].
  pose proof (sg_sq k1 kmul d flip sg SF (flip i0) (flip_lt k1 kmul d flip sg SF i0 ltac:(assumption))) as S0. pose proof (sg_sq k1 kmul d flip sg SF (flip i1) (flip_lt k1 kmul d flip sg SF i1 ltac:(assumption))) as S1. ring [S0 S1].
Qed.
Theorem jq_ok quarter j1 q A Q r : homogeneous k0 L M E -> rotation_invariant 2 (loc2 A) -> less_quarter quarter A Q -> reduced 4 (plaquette o) r ->
  exists e, jq_bp_energy k0 k1 kadd kmul ksub quarter d j1 q A rot r = Ok e /\ N *k e = rotated (H_jq k0 kadd kmul kopp L M j1 q A Q).
Proof.
  intros HH HA HQ Hr. unfold jq_bp_energy. set (Q' := tsub ksub (rot_first A) (tscl kmul quarter (id_n k0 k1 d 2))).
  change (jq_bp_hp k0 k1 kadd kmul ksub quarter d j1 q A rot) with (jq_c4v_hp k0 k1 kadd kmul ksub d j1 q (rot_first A) Q').
  destruct (hp_jq_c4v k0 k1 kadd kmul ksub kopp Kr L M d HL HM j1 q (rot_first A) Q') as (t & Et & G & _). rewrite Et. cbn [bind]. eexists. split; [reflexivity|].
  rewrite (jq_rotated j1 q A (rot_first A) Q Q') by (first [exact HA | apply rot_first_half | exact (less_inv quarter A Q HA HQ) | exact (less_half quarter A Q HQ)]).
  rewrite <- (E_eq _ _ (jq_c4v_operator k0 k1 kadd kmul ksub kopp Kr L M d HL HM j1 q (rot_first A) Q' t Et)).
  rewrite E_sum, (dot4 k0 kadd kmul L M d E _ _ _ Hr G). rewrite (sum_map_ext k0 kadd sites _ (fun _ => E (on (plaquette o) (loc4 t)))).
  - symmetry. apply (sum_const k0 k1 kadd kmul ksub kopp Kr).
  - intros p _. rewrite at_p. rewrite (homog k0 kadd kmul L M d HL HM E HE HH). now rewrite (at_p o).
Qed.

(** coupled ladders *)
Section Ladders.
Variables (v2s : coord -> coord) (ks : list coord) (n : nat).
Hypothesis HT : tiling L M v2s ks n.
Hypothesis HI : invariant k0 L M E v2s.
Variable kdiv : K -> nat -> K.
Hypothesis Hdiv : forall x m, m <> O -> ofnat m *k kdiv x m = x.
Lemma dot_swapped_ok r t : twf r -> tdims r = [d; d; d; d] -> twf t -> tdims t = [d; d; d; d] -> symmetric2 k0 d t -> dot_swapped k0 kadd kmul d r t = dot r t.
Proof.
  intros Wr Dr Wt Dt HS. rewrite (dot_sum k0 kadd kmul r t Wr Wt) by congruence. unfold dot_swapped, ksum. rewrite Dr. apply (sum_map_ext k0 kadd). intros ix Hix. apply In_indices in Hix.
  pose proof (in_range_length _ _ Hix) as Hl. destruct ix as [|i [|j [|a [|b [|]]]]]; try discriminate Hl. f_equal.
  repeat match goal with F : in_range (_ :: _) _ |- _ => inversion F; clear F; subst | F : Forall2 _ (_ :: _) _ |- _ => inversion F; clear F; subst end. symmetry. now apply HS.
Qed.
Lemma half_symmetric A : symmetric2 k0 d A -> rotation_invariant 2 (loc2 A) -> symmetric2 k0 d (rot_first A).
Proof.
  intros SA HA i j a b Hi Hj Ha Hb.
  assert (W : forall x y, (x < d)%nat -> (y < d)%nat -> within d 2 [x; y]) by (intros; split; [reflexivity|]; repeat (apply Forall_cons; [assumption|]); constructor).
  rewrite rot_first_half by auto. rewrite (other_half A (rot_first A) [j; i]) by (auto using rot_first_half).
  unfold BipSpec.turned, signs, flips. cbn [combine map fold_right fst snd]. rewrite (SA (flip i) j (flip a) b) by (try assumption; now apply (flip_lt k1 kmul d flip sg SF)). ring.
Qed.
Lemma scl_symmetric c A : symmetric2 k0 d A -> symmetric2 k0 d (tscl kmul c A).
Proof.
  intros SA i j a b Hi Hj Ha Hb. pose proof (SA i j a b Hi Hj Ha Hb) as S. unfold PlaqSpec.loc2, tscl in *. rewrite !tget_tmap.
  destruct (tget A [i; j; a; b]), (tget A [j; i; b; a]); cbn [option_map]; [congruence | rewrite S; ring | rewrite <- S; ring | reflexivity].
Qed.
Theorem ladders_ok rx ry alpha A Z : symmetric2 k0 d A -> rotation_invariant 2 (loc2 A) -> (forall p, In p sites -> Z.even (snd (v2s p)) = Z.even (snd p)) ->
  (forall k, In k ks -> reduced 2 [k; px k] (rx k)) -> (forall k, In k ks -> reduced 2 [k; py k] (ry k)) ->
  N *k ladders_bp_energy k0 kadd kmul kdiv d ks rx ry alpha A rot = rotated (H_ladders k0 k1 kadd kmul kopp L M alpha k0 A Z).
Proof.
  intros SA HA Hv Hx Hy. unfold ladders_bp_energy. rewrite (per_site k0 k1 kadd kmul ksub kopp Kr L M HL HM v2s ks n HT kdiv Hdiv).
  set (h := rot_first A). assert (Hh : half_turned A h) by apply rot_first_half.
  set (cf := fun c : coord => if Z.even (snd c) then k1 else alpha).
  assert (Q : forall l a, (forall k, In k l -> In k ks) -> fold_left (fun e c => e +k dot (rx c) h +k (if Z.even (snd c) then dot (ry c) h else dot_swapped k0 kadd kmul d (ry c) (tscl kmul alpha h))) l a =
     a +k sum (map (fun c => E (on [c; px c] (loc2 h)) +k cf c *k E (on [c; py c] (loc2 h))) l)).
  { induction l as [|c l IH]; intros a Hl; [cbn; ring|]. cbn [fold_left map fold_right]. rewrite IH by (intros k Hk; apply Hl; now right).
    assert (Hc : In c ks) by (apply Hl; now left). rewrite (dot2 k0 kadd kmul L M d E _ _ _ (Hx c Hc)) by (try reflexivity; apply twf_tbuild).
    assert (QY : (if Z.even (snd c) then dot (ry c) h else dot_swapped k0 kadd kmul d (ry c) (tscl kmul alpha h)) = cf c *k E (on [c; py c] (loc2 h))).
    { unfold cf. destruct (Z.even (snd c)).
      - rewrite (dot2 k0 kadd kmul L M d E _ _ _ (Hy c Hc)) by (try reflexivity; apply twf_tbuild). ring.
      - pose proof (Hy c Hc) as (Dr & Wr & _). rewrite dot_swapped_ok; try exact Wr; try exact Dr; try reflexivity; [|apply twf_tmap, twf_tbuild | now apply scl_symmetric, half_symmetric].
        rewrite (dot2 k0 kadd kmul L M d E _ _ _ (Hy c Hc)) by (try reflexivity; apply twf_tmap, twf_tbuild).
        rewrite <- (E_scaled k0 k1 kadd kmul ksub kopp Kr L M d E HE). apply (E_ext [c; py c]). intros i a' Hi Ha. apply within2 in Hi, Ha. destruct Hi as (i0 & i1 & -> & ? & ?), Ha as (a0 & a1 & -> & ? & ?).
        unfold PlaqSpec.loc2, tscl. rewrite tget_tmap. destruct (tget h _); cbn [option_map]; [reflexivity | ring]. }
    rewrite QY. ring. }
  match goal with |- context [fold_left ?f ks k0] => replace (fold_left f ks k0) with (k0 +k sum (map (fun c => E (on [c; px c] (loc2 h)) +k cf c *k E (on [c; py c] (loc2 h))) ks)) by (symmetry; apply Q; auto) end.
  unfold H_ladders. rewrite !R_add, !R_sum. unfold bonds_x. rewrite map_map. unfold bond. cbn [fst snd].
  rewrite (sum_map_ext k0 kadd sites (fun x => rotated (oscale kmul (k0 *k parity k1 kopp x) (on [x] (loc1 Z)))) (fun _ => k0)) by (intros p _; rewrite R_scale; ring).
  rewrite (sum_const k0 k1 kadd kmul ksub kopp Kr).
  rewrite <- (sum_map_add k0 k1 kadd kmul ksub kopp Kr).
  transitivity (ofnat n *k sum (map (fun c => E (on [c; px c] (loc2 h)) +k cf c *k E (on [c; py c] (loc2 h))) ks)); [ring|].
  rewrite <- (tile_sum k0 k1 kadd kmul ksub kopp Kr L M v2s ks n _ HT).
  match goal with |- ?l = ?r +k _ => transitivity r; [|ring] end.
  apply (sum_map_ext k0 kadd). intros p Hp. rewrite R_scale, (pair_x A h), (pair_y A h) by assumption.
  rewrite <- (moved k0 L M E v2s HI p (fun q => [q; px q]) _ (loc2 h) Hp bx_vs), <- (moved k0 L M E v2s HI p (fun q => [q; py q]) _ (loc2 h) Hp by_vs). unfold cf. rewrite Hv by exact Hp. reflexivity.
Qed.
End Ladders.
End Pairs.
