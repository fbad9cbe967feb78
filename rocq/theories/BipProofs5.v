(** J1-J2: the energies. *)
From Coq Require Import Lia Ring Permutation.
From Verif Require Import Base BaseLemmas Tensor TensorLemmas Plaq PlaqSpec PlaqProofs PlaqProofs2 PlaqProofs3 PlaqProofs6 PlaqProofs9 Bip BipSpec BipProofs BipProofs2 BipProofs3 BipProofs4.
Open Scope list_scope.
Open Scope Z_scope.
Open Scope res_scope.

Section Energy.
Context {K : Type} (k0 k1 : K) (kadd kmul ksub : K -> K -> K) (kopp : K -> K).
Hypothesis Kr : ring_theory k0 k1 kadd kmul ksub kopp (@eq K).
Add Ring KringB5 : Kr.
Notation "a +k b" := (kadd a b) (at level 50, left associativity).
Notation "a -k b" := (ksub a b) (at level 50, left associativity).
Notation "a *k b" := (kmul a b) (at level 40, left associativity).
Notation sum l := (fold_right kadd k0 l).
Notation ofnat := (ofnat k0 k1 kadd).
Notation dot := (dot k0 kadd kmul).
Variables (L M : Z) (d : nat).
Hypotheses (HL : 2 <= L) (HM : 2 <= M) (EL : Z.even L = true) (EM : Z.even M = true).
Notation sites := (sites L M).
Notation wrap := (wrap L M).
Notation on := (on k0 L M).
Notation N := (ofnat (length sites)).
Variables (flip : nat -> nat) (sg : nat -> K).
Hypothesis SF : signed_flip k1 kmul d flip sg.
Notation turned := (turned k1 kmul flip sg).
Notation rotation_invariant := (rotation_invariant k1 kmul d flip sg).
Variable E : @operator K -> K.
Hypothesis HE : expectation kadd kmul d E.
Hypothesis HH : homogeneous k0 L M E.
Variables half quarter two : K.
Hypothesis Hh : half +k half = k1.
Hypothesis Hq : (k1 +k k1 +k k1 +k k1) *k quarter = k1.
Hypothesis H2 : two = k1 +k k1.
Variable nonzero : K -> bool.
Hypothesis Hnz : forall x, nonzero x = false -> x = k0.
Notation rotated := (rotated k1 kmul L M flip sg E).
Notation loc2 := (loc2 k0).
Notation loc1 := (loc1 k0).
Notation loc4 := (loc4 k0).
Notation o := (0, 0).
Notation reduced := (reduced k0 kadd kmul L M d E).
Notation HR := (rotated_expectation k0 k1 kadd kmul ksub kopp Kr L M d flip sg SF E HE).
Notation R_eq := (E_eq kadd kmul d rotated HR).
Notation R_add := (E_add kadd kmul d rotated HR).
Notation R_scale := (E_scale kadd kmul d rotated HR).
Notation R_sum := (E_sum k0 k1 kadd kmul ksub kopp Kr d rotated HR).
Notation rot_at := (rot_at k0 k1 kadd kmul ksub kopp Kr L M d HL HM EL EM flip sg SF E HE HH).
Notation sum_inv := (sum_inv k0 k1 kadd kmul ksub kopp Kr L M d HL HM EL EM flip sg SF E HE HH half Hh).
Notation none_at := (none_at k0 k1 kadd kmul ksub kopp Kr L M d flip sg E HE).
Notation homog := (homog k0 kadd kmul L M d HL HM E HE HH).
Notation E_ext := (E_ext k0 kadd kmul L M d E HE).
Variable rot : tensor K.
Hypothesis Hrot : rotation_matrix k0 d flip sg rot.
Notation rot_mid := (rot_mid k0 kadd kmul d rot).
Notation rot_first := (rot_first k0 kadd kmul d rot).

Lemma plaq_o : NoDup (map wrap [o; (1, 0); (0, 1); (1, 1)]).
Proof. exact (plaq_nodup L M HL HM o). Qed.
Lemma mid_value t : E (on (plaquette o) (loc4 (rot_mid t))) = rotated (on (plaquette o) (loc4 t)).
Proof.
  rewrite (rotated_on k0 k1 kadd kmul ksub kopp Kr L M d HL HM EL EM flip sg SF E HE) by (now apply plaq_nodup). apply (E_ext (plaquette o)). intros i a Hi Ha.
  apply (rot_mid_loc k0 k1 kadd kmul ksub kopp Kr d flip sg SF rot Hrot t i a); assumption.
Qed.
Lemma dot_mid r t : reduced 4 (plaquette o) r -> dot r (rot_mid t) = rotated (on (plaquette o) (loc4 t)).
Proof. intros Hr. rewrite (dot4 k0 kadd kmul L M d E _ _ _ Hr) by (apply rot_mid_good). apply mid_value. Qed.
Lemma loc4_scaled c t i a : good d t -> within d 4 i -> within d 4 a -> loc4 (tscl kmul c t) i a = c *k loc4 t i a.
Proof. intros G Hi Ha. now apply (loc4_scl k0 kmul d). Qed.
Lemma E_scaled c ps (O : local) : E (on ps (fun i a => c *k O i a)) = c *k E (on ps O).
Proof. rewrite <- (E_scale kadd kmul d E HE). apply (proj1 HE). intros s s' _ _. unfold oscale, PlaqSpec.on. destruct agree_off; [reflexivity|ring]. Qed.
Lemma E_added ps (O O' : local) : E (on ps (fun i a => O i a +k O' i a)) = E (on ps O) +k E (on ps O').
Proof. rewrite <- (E_add kadd kmul d E HE). apply (proj1 HE). intros s s' _ _. unfold oadd, PlaqSpec.on. destruct agree_off; [reflexivity|ring]. Qed.
Lemma dot_chiral r c t : reduced 4 (plaquette o) r -> dot r (tscl kmul c (rot_mid t)) = c *k rotated (on (plaquette o) (loc4 t)).
Proof.
  intros Hr. rewrite (dot4 k0 kadd kmul L M d E _ _ _ Hr) by (apply good_tscl, rot_mid_good). rewrite <- mid_value, <- E_scaled. apply (E_ext (plaquette o)). intros i a Hi Ha.
  apply loc4_scaled; auto. apply rot_mid_good.
Qed.
Lemma sum_plaq (O : local) : rotation_invariant 4 O -> rotated (H_plaq k0 kadd L M O) = N *k rotated (on (plaquette o) O).
Proof.
  intros HO. unfold H_plaq. rewrite R_sum. rewrite (sum_map_ext k0 kadd sites _ (fun p => rotated (on (map (cadd p) [o; (1, 0); (0, 1); (1, 1)]) O))) by (intros p _; now rewrite at_p).
  rewrite (sum_inv [o; (1, 0); (0, 1); (1, 1)]) by (try exact HO; apply plaq_o). f_equal.
  rewrite (at_p o), rot_at by apply plaq_o. reflexivity.
Qed.
Lemma sum_nnnn B : 2 < L -> 2 < M -> rotation_invariant 2 (loc2 B) ->
  rotated (H_nnnn k0 kadd L M B) = N *k (E (on [o; (2, 0)] (loc2 B)) +k E (on [o; (0, 2)] (loc2 B))).
Proof.
  intros L2 M2 HB. unfold H_nnnn. rewrite R_sum.
  assert (W1 : NoDup (map wrap [o; (2, 0)])). { apply nd2. unfold PlaqSpec.wrap. cbn [fst snd]. rewrite (Z.mod_small 0 L), (Z.mod_small 2 L) by lia. intros Q. apply pair_equal_spec in Q. destruct Q as [Q _]. discriminate Q. }
  assert (W2 : NoDup (map wrap [o; (0, 2)])). { apply nd2. unfold PlaqSpec.wrap. cbn [fst snd]. rewrite (Z.mod_small 0 M), (Z.mod_small 2 M) by lia. intros Q. apply pair_equal_spec in Q. destruct Q as [_ Q]. discriminate Q. }
  rewrite (sum_map_ext k0 kadd sites _ (fun p => rotated (on (map (cadd p) [o; (2, 0)]) (loc2 B)) +k rotated (on (map (cadd p) [o; (0, 2)]) (loc2 B)))).
  2:{ intros p _. rewrite R_add. f_equal; f_equal; f_equal; destruct p as [x y]; unfold cadd; cbn; rewrite !Z.add_0_r; reflexivity. }
  rewrite (sum_map_add k0 k1 kadd kmul ksub kopp Kr), !(sum_inv [o; (2, 0)]), !(sum_inv [o; (0, 2)]) by assumption.
  pose proof (none_at [o; (2, 0)] (loc2 B)) as Q1. pose proof (none_at [o; (0, 2)] (loc2 B)) as Q2. cbn [length repeat] in Q1, Q2. cbn [map odd Z.odd fst snd Z.add]. unfold odd. cbn [fst snd Z.add Z.odd]. rewrite Q1, Q2. ring.
Qed.

Section J1J2.
Variables (j1 j2 j3 lmbd hz : K) (A B Z U chiral : tensor K).
Hypothesis HA : symmetric2 k0 d A.
Hypothesis HB : rotation_invariant 2 (loc2 B).
Hypothesis HC : lmbd = k0 \/ rotation_invariant 4 (loc4 chiral).
Notation H0 := (H_j1j2 k0 k1 kadd kmul kopp L M j1 j2 hz A B Z U).
Notation hp_rot := (hp_rot k0 k1 kadd kmul ksub kopp half quarter d j1 j2 hz A B Z U rot).
Notation hp_chiral_rot := (hp_chiral_rot k0 k1 kadd kmul nonzero d lmbd rot chiral).

Lemma plaq_energy r : reduced 4 (plaquette o) r -> exists t, hp_rot = Ok t /\ N *k dot r t = rotated H0.
Proof.
  intros Hr. destruct (value_hp k0 k1 kadd kmul ksub kopp Kr L M d HL HM EL EM flip sg SF E HE HH half quarter Hh Hq j1 j2 hz A B Z U HA HB) as (t & Et & G & V).
  unfold Bip.hp_rot. rewrite Et. cbn [bind]. eexists. split; [reflexivity|]. rewrite dot_mid by exact Hr. rewrite V.
  symmetry. apply (value_H k0 k1 kadd kmul ksub kopp Kr L M d HL HM EL EM flip sg SF E HE HH half Hh). exact HB.
Qed.
Lemma chiral_energy r : reduced 4 (plaquette o) r ->
  N *k (if nonzero lmbd then dot r hp_chiral_rot else k0) = lmbd *k rotated (H_plaq k0 kadd L M (loc4 chiral)).
Proof.
  intros Hr. unfold Bip.hp_chiral_rot. destruct (nonzero lmbd) eqn:El; [|rewrite (Hnz _ El); ring]. rewrite dot_chiral by exact Hr.
  destruct HC as [-> |HC']; [ring|]. rewrite sum_plaq by exact HC'. ring.
Qed.
Theorem energy_BP_ok rdm nnnn : reduced 4 (plaquette o) (rdm o) ->
  (nonzero j3 = true -> 2 < L /\ 2 < M /\ nnnn o = Ok (E (on [o; (2, 0)] (loc2 B)) +k E (on [o; (0, 2)] (loc2 B)))) ->
  exists e, energy_BP k0 k1 kadd kmul ksub kopp half quarter nonzero d j1 j2 j3 lmbd hz A B Z U rot chiral true rdm nnnn = Ok e /\
    N *k e = rotated H0 +k lmbd *k rotated (H_plaq k0 kadd L M (loc4 chiral)) +k j3 *k rotated (H_nnnn k0 kadd L M B).
Proof.
  intros Hr Hn. destruct (plaq_energy _ Hr) as (t & Et & V). pose proof (chiral_energy _ Hr) as C. unfold energy_BP. cbn [negb]. rewrite Et. cbn [bind].
  assert (Q : N *k (if nonzero lmbd then dot (rdm o) t +k dot (rdm o) hp_chiral_rot else dot (rdm o) t) = rotated H0 +k lmbd *k rotated (H_plaq k0 kadd L M (loc4 chiral))).
  { rewrite <- V, <- C. destruct (nonzero lmbd); ring. }
  destruct (nonzero j3) eqn:Ej.
  - destruct (Hn eq_refl) as (L2 & M2 & En). rewrite En. cbn [bind]. eexists. split; [reflexivity|]. rewrite sum_nnnn by assumption. rewrite <- Q. ring.
  - eexists. split; [reflexivity|]. rewrite Q, (Hnz _ Ej). ring.
Qed.

(** ** C4v *)
Hypothesis HI : isotropic k0 L M E.
Lemma nnnn_turn : E (on [o; (0, 2)] (loc2 B)) = E (on [o; (2, 0)] (loc2 B)).
Proof. exact (HI [o; (2, 0)] (loc2 B)). Qed.
Lemma third r3 e v : N *k e = v -> (nonzero j3 = true -> 2 < L /\ 2 < M /\ twf B /\ tdims B = [d; d; d; d] /\ reduced 2 [o; (2, 0)] r3) ->
  N *k (if nonzero j3 then e +k two *k j3 *k dot r3 B else e) = v +k j3 *k rotated (H_nnnn k0 kadd L M B).
Proof.
  intros V H3. destruct (nonzero j3) eqn:Ej.
  - destruct (H3 eq_refl) as (L2 & M2 & WB & DB & R3). rewrite sum_nnnn by assumption. rewrite nnnn_turn, (dot2 k0 kadd kmul L M d E _ _ _ R3) by assumption. rewrite <- V, H2. ring.
  - rewrite V, (Hnz _ Ej). ring.
Qed.
Theorem energy_1x1_ok r r3 : reduced 4 (plaquette o) r ->
  (nonzero j3 = true -> 2 < L /\ 2 < M /\ twf B /\ tdims B = [d; d; d; d] /\ reduced 2 [o; (2, 0)] r3) ->
  exists e, energy_1x1 k0 k1 kadd kmul ksub kopp half quarter two nonzero d j1 j2 j3 lmbd hz A B Z U rot chiral r r3 = Ok e /\
    N *k e = rotated H0 +k lmbd *k rotated (H_plaq k0 kadd L M (loc4 chiral)) +k j3 *k rotated (H_nnnn k0 kadd L M B).
Proof.
  intros Hr H3. destruct (plaq_energy _ Hr) as (t & Et & V). pose proof (chiral_energy _ Hr) as C. unfold energy_1x1. rewrite Et. cbn [bind]. eexists. split; [reflexivity|].
  apply third; [|exact H3]. rewrite <- V, <- C. destruct (nonzero lmbd); ring.
Qed.

(** bonds of an isotropic state *)
Lemma turned_swap b c i j x y : (i < d)%nat -> (j < d)%nat -> (x < d)%nat -> (y < d)%nat -> turned [b; c] (loc2 A) [i; j] [x; y] = turned [c; b] (loc2 A) [j; i] [y; x].
Proof.
  intros Hi Hj Hx Hy. unfold BipSpec.turned, signs, flips. cbn [combine map fold_right fst snd].
  assert (F : forall (b : bool) i, (i < d)%nat -> ((if b then flip i else i) < d)%nat) by (intros [|] k Hk; [now apply (flip_lt k1 kmul d flip sg SF) | exact Hk]).
  rewrite (HA (if b then flip i else i) (if c then flip j else j) (if b then flip x else x) (if c then flip y else y)) by auto. destruct b, c; ring.
Qed.
Lemma on_turned_swap b c p q : E (on [p; q] (turned [b; c] (loc2 A))) = E (on [q; p] (turned [c; b] (loc2 A))).
Proof.
  apply (proj1 HE). intros s s' Hs Hs'. unfold PlaqSpec.on. cbn [map].
  assert (Q : agree_off L M [wrap p; wrap q] s s' = agree_off L M [wrap q; wrap p] s s').
  { apply Bool.eq_true_iff_eq. rewrite !(agree_off_spec L M). split; intros H r Hr Hn; apply H; auto; cbn in *; tauto. }
  rewrite Q. destruct (agree_off L M [wrap q; wrap p] s s'); [|reflexivity]. apply turned_swap; auto.
Qed.
Notation bx := (bx k0 k1 kmul L M flip sg E A).
Notation by_ := (by_ k0 k1 kmul L M flip sg E A).
Lemma by_bx b : by_ b = bx b.
Proof. exact (HI [o; (1, 0)] _). Qed.
Lemma bx_bx : bx false = bx true.
Proof.
  unfold BipProofs4.bx. cbn [negb]. rewrite on_turned_swap. rewrite <- (HI [(1, 0); o]). cbn [map quarter_turn fst snd]. rewrite <- (HI [_; _]). cbn [map quarter_turn fst snd].
  rewrite <- (homog (1, 0)). reflexivity.
Qed.
Lemma d2_d1 : d2 k0 L M E B = d1 k0 L M E B.
Proof.
  unfold d2, d1. transitivity (E (on (map quarter_turn (map quarter_turn (map quarter_turn [o; (1, 1)]))) (loc2 B))); [|now rewrite !HI].
  exact (homog (0, 1) (map quarter_turn (map quarter_turn (map quarter_turn [o; (1, 1)]))) (loc2 B)).
Qed.

(** energy_1x1_lowmem: the first spin of the pair is the rotated one *)
Notation hz_2x1_rot := (hz_2x1_rot k0 k1 kadd kmul ksub d Z rot).
Notation huni_2x1_rot := (huni_2x1_rot k0 k1 kadd kmul d U rot).
Lemma dot_first_rot r t : reduced 2 [o; (1, 0)] r -> dot r (rot_first t) = E (on [o; (1, 0)] (turned [true; false] (loc2 t))).
Proof.
  intros Hr. rewrite (dot2 k0 kadd kmul L M d E _ _ _ Hr) by (try reflexivity; apply twf_tbuild).
  apply (E_ext [o; (1, 0)]). intros i a Hi Ha. apply (rot_first_loc k0 k1 kadd kmul ksub kopp Kr d flip sg SF rot Hrot); assumption.
Qed.
Lemma el_kron A' B' i j a b : (i < d)%nat -> (j < d)%nat -> (a < d)%nat -> (b < d)%nat ->
  Plaq.el k0 (kron k0 kmul d A' B') [i; j; a; b] = loc1 A' [i] [a] *k loc1 B' [j] [b].
Proof. intros. unfold Plaq.el, kron. rewrite tget_tbuild by (repeat (apply Forall2_cons; [assumption|]); constructor). reflexivity. Qed.
Lemma loc1_eye i a : (i < d)%nat -> (a < d)%nat -> loc1 (eye k0 k1 d) [i] [a] = if Nat.eqb i a then k1 else k0.
Proof. intros. unfold PlaqSpec.loc1, eye. rewrite tget_tbuild by (repeat (apply Forall2_cons; [assumption|]); constructor). reflexivity. Qed.
Lemma loc2_add (a b : tensor K) i x : twf a -> twf b -> tdims a = [d; d; d; d] -> tdims b = [d; d; d; d] -> within d 2 i -> within d 2 x ->
  loc2 (tadd kadd a b) i x = loc2 a i x +k loc2 b i x.
Proof.
  intros Wa Wb Da Db Hi Hx. apply within2 in Hi, Hx. destruct Hi as (i0 & i1 & -> & ? & ?), Hx as (x0 & x1 & -> & ? & ?). unfold PlaqSpec.loc2, tadd.
  rewrite tget_tzip by congruence.
  destruct (tget_Some a [i0; i1; x0; x1] Wa) as [v ->]; [rewrite Da; repeat (apply Forall2_cons; [assumption|]); constructor|].
  destruct (tget_Some b [i0; i1; x0; x1] Wb) as [w ->]; [rewrite Db; repeat (apply Forall2_cons; [assumption|]); constructor|]. reflexivity.
Qed.
Lemma loc2_two A' B' i j a b : (i < d)%nat -> (j < d)%nat -> (a < d)%nat -> (b < d)%nat ->
  loc2 (tadd kadd (kron k0 kmul d A' (eye k0 k1 d)) (kron k0 kmul d (eye k0 k1 d) B')) [i; j] [a; b] =
  (if Nat.eqb j b then loc1 A' [i] [a] else k0) +k (if Nat.eqb i a then loc1 B' [j] [b] else k0).
Proof.
  intros. rewrite loc2_add; try (apply twf_tbuild); try reflexivity; try (split; [reflexivity|]; repeat (apply Forall_cons; [assumption|]); constructor).
  unfold PlaqSpec.loc2. fold (Plaq.el k0 (kron k0 kmul d A' (eye k0 k1 d)) [i; j; a; b]). fold (Plaq.el k0 (kron k0 kmul d (eye k0 k1 d) B') [i; j; a; b]).
  rewrite !el_kron, !loc1_eye by assumption. destruct (Nat.eqb j b), (Nat.eqb i a); ring.
Qed.
Lemma flip_eqb i a : (i < d)%nat -> (a < d)%nat -> Nat.eqb (flip i) (flip a) = Nat.eqb i a.
Proof.
  intros Hi Ha. apply Bool.eq_true_iff_eq. rewrite !Nat.eqb_eq. split; [|congruence]. intros Q. rewrite <- (flip_flip k1 kmul d flip sg SF i Hi), Q. now apply (flip_flip k1 kmul d flip sg SF).
Qed.
Lemma on_left (O : local) s s' : valid d s -> valid d s' ->
  on [o; (1, 0)] (fun i a => match i, a with [i; j], [a; b] => if Nat.eqb j b then O [i] [a] else k0 | _, _ => k0 end) s s' = on [o] O s s'.
Proof.
  intros Hs Hs'. apply (on_pick k0 L M d HL HM [o; (1, 0)] [0%nat] O); auto.
  - apply nd2, w01; assumption.
  - intros u [<-|[]]. cbn. lia.
  - intros i a Li La _ _. destruct i as [|i [|j [|]]]; try discriminate. destruct a as [|a [|b [|]]]; try discriminate. unfold others_agree, pick. cbn. now rewrite Bool.andb_true_r.
Qed.
Lemma on_right (O : local) s s' : valid d s -> valid d s' ->
  on [o; (1, 0)] (fun i a => match i, a with [i; j], [a; b] => if Nat.eqb i a then O [j] [b] else k0 | _, _ => k0 end) s s' = on [(1, 0)] O s s'.
Proof.
  intros Hs Hs'. apply (on_pick k0 L M d HL HM [o; (1, 0)] [1%nat] O); auto.
  - apply nd2, w01; assumption.
  - intros u [<-|[]]. cbn. lia.
  - intros i a Li La _ _. destruct i as [|i [|j [|]]]; try discriminate. destruct a as [|a [|b [|]]]; try discriminate. unfold others_agree, pick. cbn. now rewrite Bool.andb_true_r.
Qed.
Lemma two_value A' B' : E (on [o; (1, 0)] (turned [true; false] (loc2 (tadd kadd (kron k0 kmul d A' (eye k0 k1 d)) (kron k0 kmul d (eye k0 k1 d) B'))))) =
  s1 k0 k1 kmul L M flip sg E A' true +k s1 k0 k1 kmul L M flip sg E B' false.
Proof.
  transitivity (E (oadd kadd (on [o] (turned [true] (loc1 A'))) (on [(1, 0)] (turned [false] (loc1 B'))))).
  - apply (proj1 HE). intros s s' Hs Hs'. unfold oadd. rewrite <- on_left, <- on_right by assumption.
    unfold PlaqSpec.on. destruct agree_off; [|ring]. cbn [map]. 
    pose proof (Hs (wrap o)) as Q1. pose proof (Hs (wrap (1, 0))) as Q2. pose proof (Hs' (wrap o)) as Q3. pose proof (Hs' (wrap (1, 0))) as Q4. revert Q1 Q2 Q3 Q4. generalize (s (wrap o)) (s (wrap (1, 0))) (s' (wrap o)) (s' (wrap (1, 0))). intros i j a b Q1 Q2 Q3 Q4.
    unfold BipSpec.turned, signs, flips. cbn [combine map fold_right fst snd]. rewrite loc2_two by (try assumption; now apply (flip_lt k1 kmul d flip sg SF)). rewrite flip_eqb by assumption.
    destruct (Nat.eqb_spec i a) as [<-|]; [|destruct (Nat.eqb j b); ring]. pose proof (sg_sq k1 kmul d flip sg SF (flip i) (flip_lt k1 kmul d flip sg SF i Q1)) as S.
    destruct (Nat.eqb j b); ring [S].
  - rewrite (E_add kadd kmul d E HE). f_equal. exact (homog (1, 0) [o] _).
Qed.
Lemma s1_neg Z' b : s1 k0 k1 kmul L M flip sg E (tneg kopp Z') b = kopp (s1 k0 k1 kmul L M flip sg E Z' b).
Proof.
  unfold s1. transitivity (E (on [o] (fun i a => kopp k1 *k turned [b] (loc1 Z') i a))); [|rewrite E_scaled; ring].
  apply (E_ext [o]). intros i a Hi Ha. apply within1 in Hi, Ha. destruct Hi as (i0 & -> & ?), Ha as (a0 & -> & ?). unfold BipSpec.turned, flips, PlaqSpec.loc1, tneg. cbn [combine map fst snd].
  rewrite tget_tmap. destruct (tget _ _); cbn [option_map]; ring.
Qed.
(** [uni] tells whether [h_uni] is non-zero *)
Theorem lowmem_ok uni rNN rNNN r3 : lmbd = k0 -> nonzero lmbd = false -> (uni = true \/ forall i a, loc1 U i a = k0) ->
  twf B -> tdims B = [d; d; d; d] ->
  reduced 2 [o; (1, 0)] rNN -> (nonzero j2 = true -> reduced 2 [o; (1, 1)] rNNN) -> (nonzero j3 = true -> 2 < L /\ 2 < M /\ reduced 2 [o; (2, 0)] r3) ->
  exists e, energy_1x1_lowmem k0 k1 kadd kmul ksub kopp half two nonzero d j1 j2 j3 lmbd hz A B Z U rot uni rNN rNNN r3 = Ok e /\
    N *k e = rotated (H_j1j2 k0 k1 kadd kmul kopp L M j1 j2 (kopp hz) A B Z U) +k j3 *k rotated (H_nnnn k0 kadd L M B).
Proof.
  intros L0 Ln Hu WB DB Rnn Rnnn R3. unfold energy_1x1_lowmem. rewrite Ln. eexists. split; [reflexivity|].
  apply third; [|intros Ej; destruct (R3 Ej) as (? & ? & ?); auto].
  rewrite (value_H k0 k1 kadd kmul ksub kopp Kr L M d HL HM EL EM flip sg SF E HE HH half Hh j1 j2 (kopp hz) A B Z U HB).
  rewrite !by_bx, bx_bx, d2_d1. unfold Bip.hz_2x1_rot, Bip.huni_2x1_rot. rewrite !dot_first_rot, !two_value, s1_neg by exact Rnn. change (E (on [o; (1, 0)] (turned [true; false] (loc2 A)))) with (bx true).
  assert (QU : half *k (s1 k0 k1 kmul L M flip sg E U true +k s1 k0 k1 kmul L M flip sg E U false) = if uni then half *k (s1 k0 k1 kmul L M flip sg E U true +k s1 k0 k1 kmul L M flip sg E U false) else k0).
  { destruct Hu as [-> |Hu]; [reflexivity|]. destruct uni; [reflexivity|].
    assert (QE : forall b, s1 k0 k1 kmul L M flip sg E U b = k0).
    { intros b. unfold s1. transitivity (E (on [o] (fun i a => k0 *k turned [b] (loc1 U) i a))); [|rewrite E_scaled; ring]. apply (E_ext [o]). intros i a _ _. unfold BipSpec.turned. rewrite Hu. ring. }
    rewrite !QE. ring. }
  rewrite QU. assert (QD : j2 *k (d1 k0 L M E B +k d1 k0 L M E B) = if nonzero j2 then two *k j2 *k dot rNNN B else k0).
  { destruct (nonzero j2) eqn:Ej; [|rewrite (Hnz _ Ej); ring]. rewrite (dot2 k0 kadd kmul L M d E _ _ _ (Rnnn eq_refl)) by assumption. unfold d1. rewrite H2. ring. }
  rewrite QD. rewrite H2.
  assert (Q4 : half *k (bx true +k bx true +k bx true +k bx true) = (k1 +k k1) *k bx true).
  { transitivity ((half +k half) *k (k1 +k k1) *k bx true); [ring | rewrite Hh; ring]. }
  rewrite Q4. destruct uni, (nonzero j2); ring.
Qed.
End J1J2.
End Energy.
