(** J1-J2-lambda, AKLT, Ising. *)
From Coq Require Import Lia Ring Permutation.
From Verif Require Import Base BaseLemmas Tensor TensorLemmas Plaq PlaqSpec PlaqProofs PlaqProofs2 PlaqProofs3 PlaqProofs4 PlaqProofs6 PlaqProofs7 Bip BipSpec BipProofs BipProofs2 BipProofs3 BipProofs4 BipProofs5 BipProofs6.
Open Scope list_scope.
Open Scope Z_scope.
Open Scope res_scope.

Section Rest.
Context {K : Type} (k0 k1 : K) (kadd kmul ksub : K -> K -> K) (kopp : K -> K).
Hypothesis Kr : ring_theory k0 k1 kadd kmul ksub kopp (@eq K).
Add Ring KringB7 : Kr.
Notation "a +k b" := (kadd a b) (at level 50, left associativity).
Notation "a -k b" := (ksub a b) (at level 50, left associativity).
Notation "a *k b" := (kmul a b) (at level 40, left associativity).
Notation sum l := (fold_right kadd k0 l).
Notation ofnat := (ofnat k0 k1 kadd).
Notation dot := (dot k0 kadd kmul).
Variables (L M : Z) (d : nat).
Hypotheses (HL : 2 <= L) (HM : 2 <= M) (EL : Z.even L = true) (EM : Z.even M = true).
Notation sites := (sites L M).
Notation wrap := (wrap L M).
Notation on := (on k0 L M).
Notation N := (ofnat (length sites)).
Variables (flip : nat -> nat) (sg : nat -> K).
Hypothesis SF : signed_flip k1 kmul d flip sg.
Notation turned := (turned k1 kmul flip sg).
Notation rotation_invariant := (rotation_invariant k1 kmul d flip sg).
Variable E : @operator K -> K.
Hypothesis HE : expectation kadd kmul d E.
Hypothesis HH : homogeneous k0 L M E.
Hypothesis HI : isotropic k0 L M E.
Variables half quarter two : K.
Hypothesis H2 : two = k1 +k k1.
Variable nonzero : K -> bool.
Hypothesis Hnz : forall x, nonzero x = false -> x = k0.
Notation rotated := (rotated k1 kmul L M flip sg E).
Notation loc2 := (loc2 k0).
Notation loc1 := (loc1 k0).
Notation loc4 := (loc4 k0).
Notation o := (0, 0).
Notation reduced := (reduced k0 kadd kmul L M d E).
Notation HR := (rotated_expectation k0 k1 kadd kmul ksub kopp Kr L M d flip sg SF E HE).
Notation R_eq := (E_eq kadd kmul d rotated HR).
Notation R_add := (E_add kadd kmul d rotated HR).
Notation R_scale := (E_scale kadd kmul d rotated HR).
Notation R_sum := (E_sum k0 k1 kadd kmul ksub kopp Kr d rotated HR).
Notation E_sum := (E_sum k0 k1 kadd kmul ksub kopp Kr d E HE).
Notation E_eq := (E_eq kadd kmul d E HE).
Notation E_add := (E_add kadd kmul d E HE).
Notation E_scale := (E_scale kadd kmul d E HE).
Notation E_ext := (E_ext k0 kadd kmul L M d E HE).
Notation homog := (homog k0 kadd kmul L M d HL HM E HE HH).
Variable rot : tensor K.
Hypothesis Hrot : rotation_matrix k0 d flip sg rot.
Notation rot_mid := (rot_mid k0 kadd kmul d rot).

Lemma sum_last ds n (f : list nat -> K) : sum (map f (indices (ds ++ [n]))) = sum (map (fun ix => sum (map (fun b => f (ix ++ [b])) (seq 0 n))) (indices ds)).
Proof.
  revert f. induction ds as [|e ds IH]; intros f.
  - cbn [app indices map fold_right]. transitivity (sum (map (fun b => f [b]) (seq 0 n))); [|ring].
    generalize (seq 0 n) as l. induction l as [|x l IHl]; [reflexivity|]. cbn [flat_map map app fold_right]. now rewrite IHl.
  - cbn [app indices]. generalize (seq 0 e) as l. induction l as [|x l IHl]; [reflexivity|]. cbn [flat_map]. rewrite !map_app, !(sum_app k0 k1 kadd kmul ksub kopp Kr), IHl, !map_map. f_equal. apply (IH (fun ix => f (x :: ix))).
Qed.
(** ** Ising: the first spin of the pair *)
Lemma dot_first_ok r X : reduced 2 [o; (1, 0)] r -> dot_first k0 kadd kmul d r X = E (on [o] (loc1 X)).
Proof.
  intros (Dr & Wr & H). transitivity (E (on [o; (1, 0)] (fun i a => match i, a with [i; j], [a; b] => if Nat.eqb j b then loc1 X [i] [a] else k0 | _, _ => k0 end))).
  2:{ apply (proj1 HE). intros s s' Hs Hs'. now apply (on_left k0 L M d HL HM). }
  rewrite H. unfold dot_first, ksum. change (repeat d (2 * 2)) with [d; d; d; d].
  assert (S4 : forall f, sum (map f (indices [d; d; d; d])) = sum (map (fun ix => sum (map (fun b => f (ix ++ [b])) (seq 0 d))) (indices [d; d; d]))).
  { intros f. pose proof (sum_last [d; d; d] d f) as T. cbn [app] in T. exact T. }
  rewrite S4. apply (sum_map_ext k0 kadd). intros ix Hix. apply In_indices in Hix. pose proof (in_range_length _ _ Hix) as Hl. destruct ix as [|i [|j [|a [|]]]]; try discriminate Hl. cbn [app firstn skipn].
  inversion Hix as [|? ? ? ? Hi R1]; subst. inversion R1 as [|? ? ? ? Hj R2]; subst.
  rewrite (sum_single k0 k1 kadd kmul ksub kopp Kr (seq 0 d) j).
  - rewrite Nat.eqb_refl. reflexivity.
  - apply seq_NoDup.
  - apply in_seq. lia.
  - intros b _ Hb. destruct (Nat.eqb_spec j b); [congruence | ring].
Qed.
Lemma sum_sites (f : coord -> K) : (forall p, f p = f o) -> sum (map f sites) = N *k f o.
Proof. intros Hf. rewrite (sum_map_ext k0 kadd sites f (fun _ => f o)) by (intros p _; apply Hf). apply (sum_const k0 k1 kadd kmul ksub kopp Kr). Qed.
Lemma bonds_iso A : E (osum k0 kadd (bonds_nn L M) (bond k0 L M (loc2 A))) = N *k (two *k E (on [o; (1, 0)] (loc2 A))).
Proof.
  rewrite E_sum. unfold bonds_nn, bonds_x, bonds_y. rewrite map_app, (sum_app k0 k1 kadd kmul ksub kopp Kr), !map_map. unfold bond. cbn [fst snd].
  rewrite (sum_sites (fun p => E (on [p; px p] (loc2 A)))) by (intros p; rewrite at_x, homog; reflexivity). rewrite (sum_sites (fun p => E (on [p; py p] (loc2 A)))) by (intros p; rewrite at_y, homog; reflexivity).
  change (E (on [o; py o] (loc2 A))) with (E (on (map quarter_turn [o; (1, 0)]) (loc2 A))). rewrite HI, H2. change (px o) with (1, 0). unfold coord in *. ring.
Qed.
Theorem ising_ok q hx A X r : twf A -> tdims A = [d; d; d; d] -> nonzero q = false -> reduced 2 [o; (1, 0)] r ->
  exists e, ising_nn_energy k0 kadd kmul ksub kopp two nonzero d q hx A X r = Ok e /\ N *k e = E (H_ising k0 k1 kadd kmul kopp L M k0 hx A X).
Proof.
  intros WA DA Hq Hr. unfold ising_nn_energy. rewrite Hq. eexists. split; [reflexivity|]. unfold H_ising. rewrite !E_add, !E_scale, bonds_iso, !E_sum, dot_first_ok by exact Hr.
  rewrite (dot2 k0 kadd kmul L M d E _ _ _ Hr) by assumption. rewrite (sum_sites (fun p => E (on [p] (loc1 X)))) by (intros p; rewrite at_1, homog; reflexivity). unfold coord in *. ring.
Qed.
(** ** AKLT *)
Theorem aklt_ok h r : (forall j, (j < d)%nat -> sg j *k sg (flip j) = k1) -> symmetric2 k0 d h -> reduced 2 [o; (1, 0)] r ->
  aklt_bp_energy k0 kadd kmul d r h rot = rotated (on [o; (1, 0)] (loc2 h)) /\
  N *k (two *k aklt_bp_energy k0 kadd kmul d r h rot) = rotated (osum k0 kadd (bonds_nn L M) (bond k0 L M (loc2 h))).
Proof.
  intros He HS Hr. 
  assert (Q : aklt_bp_energy k0 kadd kmul d r h rot = rotated (on [o; (1, 0)] (loc2 h))).
  { unfold aklt_bp_energy. rewrite (dot2 k0 kadd kmul L M d E _ _ _ Hr) by (try reflexivity; apply twf_tbuild). rewrite (rotated_on k0 k1 kadd kmul ksub kopp Kr L M d HL HM EL EM flip sg SF E HE) by (apply nd2, w01; assumption).
    apply (E_ext [o; (1, 0)]). intros i a Hi Ha. now apply (rot_second_loc k0 k1 kadd kmul ksub kopp Kr d flip sg SF rot Hrot). }
  split; [exact Q|]. rewrite Q. rewrite R_sum. unfold bonds_nn, bonds_x, bonds_y. rewrite map_app, (sum_app k0 k1 kadd kmul ksub kopp Kr), !map_map. unfold bond. cbn [fst snd].
  assert (BB : forall b, bx k0 k1 kmul L M flip sg E h b = bx k0 k1 kmul L M flip sg E h false).
  { intros [|]; [|reflexivity]. symmetry. exact (bx_bx k0 k1 kadd kmul ksub kopp Kr L M d HL HM flip sg SF E HE HH k0 h h HS (or_introl eq_refl) HI). }
  assert (VX : forall p, rotated (on [p; px p] (loc2 h)) = bx k0 k1 kmul L M flip sg E h false) by (intros p; rewrite (val_x k0 k1 kadd kmul ksub kopp Kr L M d HL HM EL EM flip sg SF E HE HH); apply BB).
  assert (VY : forall p, rotated (on [p; py p] (loc2 h)) = bx k0 k1 kmul L M flip sg E h false).
  { intros p. rewrite (val_y k0 k1 kadd kmul ksub kopp Kr L M d HL HM EL EM flip sg SF E HE HH), (by_bx k0 k1 kmul L M flip sg E h HI). apply BB. }
  rewrite (sum_sites (fun p => rotated (on [p; px p] (loc2 h)))) by (intros p; now rewrite !VX). rewrite (sum_sites (fun p => rotated (on [p; py p] (loc2 h)))) by (intros p; now rewrite !VY).
  rewrite VX, VY, H2. change [o; (1, 0)] with [o; px o]. rewrite VX. ring.
Qed.

(** ** J1-J2-lambda *)
Hypothesis Hh : half +k half = k1.
Hypothesis Hq : (k1 +k k1 +k k1 +k k1) *k quarter = k1.
Notation B2 := (B2 k0 L M).
Notation W := (W k0 L M).
Ltac goodt := repeat first [assumption | apply good_build | apply good_tzip | apply good_tscl].
Ltac ustac := let u := fresh in let H := fresh in intros u H; cbn in H; repeat (destruct H as [<- |H]; [lia|]); destruct H.
Ltac pair A p us t E G H := destruct (emb_pair k0 k1 kadd kmul ksub kopp Kr d A p us ltac:(unfold pair_perm; cbn; tauto)) as (t & E & G & H).
Ltac lin Hs Hs' := repeat first
  [ rewrite (W_add k0 k1 kadd kmul ksub kopp Kr L M d) by (solve [exact Hs | exact Hs' | goodt])
  | rewrite (W_sub k0 k1 kadd kmul ksub kopp Kr L M d) by (solve [exact Hs | exact Hs' | goodt])
  | rewrite (W_scl k0 k1 kadd kmul ksub kopp Kr L M d) by (solve [exact Hs | exact Hs' | goodt])].
Ltac embs Hs Hs' := repeat match goal with H : emb k0 d ?us _ ?t |- context [W _ _ ?p ?t] => rewrite (W_emb k0 L M d HL HM _ _ Hs Hs' p us _ t ltac:(ustac) H) end.
Lemma loc4_four Z' i x : within d 4 i -> within d 4 x -> loc4 (four_ones k0 kmul d Z' (tneg kopp Z') (tneg kopp Z') Z') i x = prod1111 k0 kmul Z' Z' Z' Z' i x.
Proof.
  intros [Li Fi] [La Fa].
  destruct i as [|i0 [|i1 [|i2 [|i3 [|]]]]]; try discriminate Li. destruct x as [|a0 [|a1 [|a2 [|a3 [|]]]]]; try discriminate La.
  repeat match goal with F : Forall _ (_ :: _) |- _ => apply Forall_cons_iff in F; destruct F as [? F] end.
  rewrite loc4_el. unfold four_ones. rewrite el_build by (repeat (apply Forall2_cons; [assumption|]); constructor). cbn [app]. unfold prod1111, PlaqSpec.loc1, Plaq.el, tneg. rewrite !tget_tmap.
  destruct (tget Z' [i0; a0]), (tget Z' [i1; a1]), (tget Z' [i2; a2]), (tget Z' [i3; a3]); cbn [option_map]; ring.
Qed.
Theorem lambda_ok j1 j2 j3 lmbd hz A B Z' U chiral r r3 : symmetric2 k0 d A -> rotation_invariant 2 (loc2 B) -> (lmbd = k0 \/ rotation_invariant 4 (loc4 chiral)) ->
  (hz = k0 \/ rotation_invariant 4 (prod1111 k0 kmul Z' Z' Z' Z')) -> (forall i a, loc1 U i a = k0) ->
  reduced 4 (plaquette o) r -> (nonzero j3 = true -> 2 < L /\ 2 < M /\ twf B /\ tdims B = [d; d; d; d] /\ reduced 2 [o; (2, 0)] r3) ->
  exists e, lambda_energy_1x1 k0 k1 kadd kmul ksub kopp half quarter two nonzero d j1 j2 j3 lmbd hz A B Z' rot chiral r r3 = Ok e /\
    N *k e = rotated (H_j1j2 k0 k1 kadd kmul kopp L M j1 j2 k0 A B Z' U) -k quarter *k hz *k rotated (H_plaq k0 kadd L M (prod1111 k0 kmul Z' Z' Z' Z'))
      +k lmbd *k rotated (H_plaq k0 kadd L M (loc4 chiral)) +k j3 *k rotated (H_nnnn k0 kadd L M B).
Proof.
  intros HA HB HC HZ HU Hr H3.
  destruct (hp_j1j2 k0 k1 kadd kmul ksub kopp Kr L M d HL HM half quarter j1 j2 k0 A B Z' U o) as (t0 & Et0 & G0 & W0).
  destruct (plaq_energy k0 k1 kadd kmul ksub kopp Kr L M d HL HM EL EM flip sg SF E HE HH half quarter Hh Hq rot Hrot j1 j2 k0 A B Z' U HA HB r Hr) as (t1 & Et1 & V).
  unfold hp_rot in Et1. rewrite Et0 in Et1. cbn [bind] in Et1. injection Et1 as <-. rewrite (dot_mid k0 k1 kadd kmul ksub kopp Kr L M d HL HM EL EM flip sg SF E HE rot Hrot r t0 Hr) in V.
  unfold lambda_energy_1x1, lambda_hp.
  pair A [0; 2; 1; 3; 4; 6; 5; 7]%nat [0; 2]%nat t1 E1 G1 W1. rewrite E1. cbn [bind].
  pair A [2; 3; 0; 1; 6; 7; 4; 5]%nat [2; 3]%nat t2 E2 G2 W2. rewrite E2. cbn [bind].
  pair A [3; 1; 2; 0; 7; 5; 6; 4]%nat [3; 1]%nat t3 E3 G3 W3. rewrite E3. cbn [bind].
  pair B [0; 3; 2; 1; 4; 7; 6; 5]%nat [0; 3]%nat t4 E4 G4 W4. rewrite E4. cbn [bind].
  pair B [2; 1; 0; 3; 6; 5; 4; 7]%nat [2; 1]%nat t5 E5 G5 W5. rewrite E5. cbn [bind].
  eexists. split; [reflexivity|].
  pose proof (emb_pair0 k0 k1 kadd kmul ksub kopp Kr d A) as WA. assert (GA : good d (two_two k0 kmul d A (id_n k0 k1 d 2))) by apply good_build.
  set (a := two_two k0 kmul d A (id_n k0 k1 d 2)) in *. set (z := four_ones k0 kmul d Z' (tneg kopp Z') (tneg kopp Z') Z'). assert (GZ : good d z) by apply good_build.
  match goal with |- context [rot_mid ?x] => set (t := x) end.
  assert (RT : rotated (on (plaquette o) (loc4 t)) = rotated (on (plaquette o) (loc4 t0)) -k quarter *k hz *k rotated (on (plaquette o) (prod1111 k0 kmul Z' Z' Z' Z'))).
  { transitivity (rotated (oadd kadd (on (plaquette o) (loc4 t0)) (oscale kmul (kopp (quarter *k hz)) (on (plaquette o) (prod1111 k0 kmul Z' Z' Z' Z'))))); [|rewrite R_add, R_scale; ring].
    apply R_eq. intros s s' Hs Hs'. unfold oadd, oscale. specialize (W0 o s s' Hs Hs'). unfold PlaqProofs3.W in W0. rewrite W0. change (on (plaquette o) (loc4 t) s s') with (W s s' o t). unfold t. lin Hs Hs'. embs Hs Hs'.
    assert (QZ : W s s' o z = on (plaquette o) (prod1111 k0 kmul Z' Z' Z' Z') s s').
    { unfold PlaqProofs3.W, PlaqSpec.on. destruct agree_off; [|reflexivity]. apply loc4_four; (split; [reflexivity|]; cbn [plaquette map]; repeat (apply Forall_cons; [apply Hs || apply Hs'|]); constructor). }
    rewrite QZ.
    assert (QU : forall p, B1 k0 L M s s' U p = k0) by (intros p; unfold B1, PlaqSpec.on; destruct agree_off; [apply HU | reflexivity]). rewrite !QU. unfold B2, pick. cbn [map nth plaquette]. unfold coord in *. ring. }
  apply (third k0 k1 kadd kmul ksub kopp Kr L M d HL HM EL EM flip sg SF E HE HH half two Hh H2 nonzero Hnz j3 B HB HI); [|exact H3].
  rewrite (dot4 k0 kadd kmul L M d E _ _ _ Hr) by (apply good_tzip; [apply rot_mid_good | apply good_tscl, rot_mid_good]).
  transitivity (N *k (E (on (plaquette o) (loc4 (rot_mid t))) +k lmbd *k E (on (plaquette o) (loc4 (rot_mid chiral))))).
  { f_equal. rewrite <- (E_scaled k0 k1 kadd kmul ksub kopp Kr L M d E HE), <- (E_added k0 k1 kadd kmul ksub kopp Kr L M d E HE). apply (E_ext (plaquette o)). intros i x Hi Hx.
    rewrite (loc4_add k0 kadd d) by (try assumption; try apply rot_mid_good; apply good_tscl, rot_mid_good). rewrite (loc4_scl k0 kmul d) by (try assumption; apply rot_mid_good). reflexivity. }
  rewrite !(mid_value k0 k1 kadd kmul ksub kopp Kr L M d HL HM EL EM flip sg SF E HE rot Hrot). rewrite RT.
  transitivity (N *k rotated (on (plaquette o) (loc4 t0)) -k quarter *k (hz *k (N *k rotated (on (plaquette o) (prod1111 k0 kmul Z' Z' Z' Z')))) +k lmbd *k (N *k rotated (on (plaquette o) (loc4 chiral)))); [ring|]. rewrite V.
  assert (QH : hz *k (N *k rotated (on (plaquette o) (prod1111 k0 kmul Z' Z' Z' Z'))) = hz *k rotated (H_plaq k0 kadd L M (prod1111 k0 kmul Z' Z' Z' Z'))).
  { destruct HZ as [-> |HZ]; [ring|]. f_equal. symmetry. now apply (sum_plaq k0 k1 kadd kmul ksub kopp Kr L M d HL HM EL EM flip sg SF E HE HH half Hh). }
  assert (QC : lmbd *k (N *k rotated (on (plaquette o) (loc4 chiral))) = lmbd *k rotated (H_plaq k0 kadd L M (loc4 chiral))).
  { destruct HC as [-> |HC]; [ring|]. f_equal. symmetry. now apply (sum_plaq k0 k1 kadd kmul ksub kopp Kr L M d HL HM EL EM flip sg SF E HE HH half Hh). }
  rewrite QH, QC. ring.
Qed.
End Rest.
