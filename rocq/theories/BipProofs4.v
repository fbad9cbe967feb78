(** J1-J2: the Hamiltonian in the rotated state, and the plaquette operator. *)
From Coq Require Import Lia Ring Permutation.
From Verif Require Import Base BaseLemmas Tensor TensorLemmas Plaq PlaqSpec PlaqProofs PlaqProofs2 PlaqProofs3 PlaqProofs6 Bip BipSpec BipProofs BipProofs2 BipProofs3.
Open Scope list_scope.
Open Scope Z_scope.
Open Scope res_scope.

Section Ham.
Context {K : Type} (k0 k1 : K) (kadd kmul ksub : K -> K -> K) (kopp : K -> K).
Hypothesis Kr : ring_theory k0 k1 kadd kmul ksub kopp (@eq K).
Add Ring KringB4 : Kr.
Notation "a +k b" := (kadd a b) (at level 50, left associativity).
Notation "a -k b" := (ksub a b) (at level 50, left associativity).
Notation "a *k b" := (kmul a b) (at level 40, left associativity).
Notation sum l := (fold_right kadd k0 l).
Notation ofnat := (ofnat k0 k1 kadd).
Variables (L M : Z) (d : nat).
Hypotheses (HL : 2 <= L) (HM : 2 <= M) (EL : Z.even L = true) (EM : Z.even M = true).
Notation sites := (sites L M).
Notation wrap := (wrap L M).
Notation on := (on k0 L M).
Notation N := (ofnat (length sites)).
Variables (flip : nat -> nat) (sg : nat -> K).
Hypothesis SF : signed_flip k1 kmul d flip sg.
Notation turned := (turned k1 kmul flip sg).
Notation rotation_invariant := (rotation_invariant k1 kmul d flip sg).
Variable E : @operator K -> K.
Hypothesis HE : expectation kadd kmul d E.
Hypothesis HH : homogeneous k0 L M E.
Variables half quarter : K.
Hypothesis Hh : half +k half = k1.
Hypothesis Hq : (k1 +k k1 +k k1 +k k1) *k quarter = k1.
Notation rotated := (rotated k1 kmul L M flip sg E).
Notation loc2 := (loc2 k0).
Notation loc1 := (loc1 k0).
Notation loc4 := (loc4 k0).
Notation o := (0, 0).
Notation HR := (rotated_expectation k0 k1 kadd kmul ksub kopp Kr L M d flip sg SF E HE).
Notation R_eq := (E_eq kadd kmul d rotated HR).
Notation R_add := (E_add kadd kmul d rotated HR).
Notation R_scale := (E_scale kadd kmul d rotated HR).
Notation R_sum := (E_sum k0 k1 kadd kmul ksub kopp Kr d rotated HR).
Notation rot_at := (rot_at k0 k1 kadd kmul ksub kopp Kr L M d HL HM EL EM flip sg SF E HE HH).
Notation sum_at := (sum_at k0 k1 kadd kmul ksub kopp Kr L M d HL HM EL EM flip sg SF E HE HH half Hh).
Notation sum_inv := (sum_inv k0 k1 kadd kmul ksub kopp Kr L M d HL HM EL EM flip sg SF E HE HH half Hh).
Notation none_at := (none_at k0 k1 kadd kmul ksub kopp Kr L M d flip sg E HE).

Lemma quarters : quarter +k quarter = half.
Proof. transitivity (half *k ((k1 +k k1 +k k1 +k k1) *k quarter)); [|rewrite Hq; ring]. transitivity ((half +k half) *k (quarter +k quarter)); [rewrite Hh; ring | ring]. Qed.
Lemma nd2 v w : wrap v <> wrap w -> NoDup (map wrap [v; w]).
Proof. intros H. cbn. repeat constructor; cbn; intuition. Qed.
Lemma nd1 v : NoDup (map wrap [v]).
Proof. cbn. repeat constructor. cbn. tauto. Qed.
Lemma w01 : wrap o <> wrap (1, 0).
Proof. unfold PlaqSpec.wrap. cbn [fst snd]. intros Q. apply pair_equal_spec in Q. destruct Q as [Q _]. revert Q. apply mod_neq; lia. Qed.
Lemma w02 : wrap o <> wrap (0, 1).
Proof. unfold PlaqSpec.wrap. cbn [fst snd]. intros Q. apply pair_equal_spec in Q. destruct Q as [_ Q]. revert Q. apply mod_neq; lia. Qed.
Lemma w03 : wrap o <> wrap (1, 1).
Proof. unfold PlaqSpec.wrap. cbn [fst snd]. intros Q. apply pair_equal_spec in Q. destruct Q as [Q _]. revert Q. apply mod_neq; lia. Qed.
Lemma w21 : wrap (0, 1) <> wrap (1, 0).
Proof. unfold PlaqSpec.wrap. cbn [fst snd]. intros Q. apply pair_equal_spec in Q. destruct Q as [Q _]. revert Q. apply mod_neq; lia. Qed.
Lemma at_x p : [p; px p] = map (cadd p) [o; (1, 0)].
Proof. destruct p as [x y]. unfold px, cadd. cbn. rewrite !Z.add_0_r. reflexivity. Qed.
Lemma at_y p : [p; py p] = map (cadd p) [o; (0, 1)].
Proof. destruct p as [x y]. unfold py, cadd. cbn. rewrite !Z.add_0_r. reflexivity. Qed.
Lemma at_d p : [p; pxy p] = map (cadd p) [o; (1, 1)].
Proof. destruct p as [x y]. unfold pxy, cadd. cbn. rewrite !Z.add_0_r. reflexivity. Qed.
Lemma at_a p : [py p; px p] = map (cadd p) [(0, 1); (1, 0)].
Proof. destruct p as [x y]. unfold px, py, cadd. cbn. rewrite !Z.add_0_r. reflexivity. Qed.
Lemma at_1 p : [p] = map (cadd p) [o].
Proof. destruct p as [x y]. unfold cadd. cbn. rewrite !Z.add_0_r. reflexivity. Qed.
Lemma at_p p : plaquette p = map (cadd p) [o; (1, 0); (0, 1); (1, 1)].
Proof. destruct p as [x y]. unfold plaquette, px, py, pxy, cadd. cbn. rewrite !Z.add_0_r. reflexivity. Qed.

Definition bx (A : tensor K) (b : bool) := E (on [o; (1, 0)] (turned [b; negb b] (loc2 A))).
Definition by_ (A : tensor K) (b : bool) := E (on [o; (0, 1)] (turned [b; negb b] (loc2 A))).
Definition s1 (Z : tensor K) (b : bool) := E (on [o] (turned [b] (loc1 Z))).
Definition d1 (B : tensor K) := E (on [o; (1, 1)] (loc2 B)).
Definition d2 (B : tensor K) := E (on [(0, 1); (1, 0)] (loc2 B)).

Lemma sum_x A : sum (map (fun p => rotated (on [p; px p] (loc2 A))) sites) = N *k (half *k (bx A true +k bx A false)).
Proof. rewrite (sum_map_ext k0 kadd sites _ (fun p => rotated (on (map (cadd p) [o; (1, 0)]) (loc2 A)))) by (intros p _; now rewrite at_x). rewrite (sum_at [o; (1, 0)]) by apply nd2, w01. reflexivity. Qed.
Lemma sum_y A : sum (map (fun p => rotated (on [p; py p] (loc2 A))) sites) = N *k (half *k (by_ A true +k by_ A false)).
Proof. rewrite (sum_map_ext k0 kadd sites _ (fun p => rotated (on (map (cadd p) [o; (0, 1)]) (loc2 A)))) by (intros p _; now rewrite at_y). rewrite (sum_at [o; (0, 1)]) by apply nd2, w02. reflexivity. Qed.
Lemma sum_d B : rotation_invariant 2 (loc2 B) -> sum (map (fun p => rotated (on [p; pxy p] (loc2 B))) sites) = N *k d1 B.
Proof. intros HB. rewrite (sum_map_ext k0 kadd sites _ (fun p => rotated (on (map (cadd p) [o; (1, 1)]) (loc2 B)))) by (intros p _; now rewrite at_d). rewrite (sum_inv [o; (1, 1)]) by (try exact HB; apply nd2, w03). f_equal. apply (none_at [o; (1, 1)]). Qed.
Lemma both_at v w B : rotation_invariant 2 (loc2 B) -> E (on [v; w] (turned [true; true] (loc2 B))) = E (on [v; w] (loc2 B)).
Proof. intros HB. apply (E_ext k0 kadd kmul L M d E HE [v; w]). exact HB. Qed.
Lemma sum_a B : rotation_invariant 2 (loc2 B) -> sum (map (fun p => rotated (on [py p; px p] (loc2 B))) sites) = N *k d2 B.
Proof. intros HB. rewrite (sum_map_ext k0 kadd sites _ (fun p => rotated (on (map (cadd p) [(0, 1); (1, 0)]) (loc2 B)))) by (intros p _; now rewrite at_a). rewrite (sum_inv [(0, 1); (1, 0)]) by (try exact HB; apply nd2, w21). f_equal. now apply both_at. Qed.
Lemma sum_u U : sum (map (fun p => rotated (on [p] (loc1 U))) sites) = N *k (half *k (s1 U true +k s1 U false)).
Proof. rewrite (sum_map_ext k0 kadd sites _ (fun p => rotated (on (map (cadd p) [o]) (loc1 U)))) by (intros p _; now rewrite <- at_1). rewrite (sum_at [o]) by apply nd1. reflexivity. Qed.
Lemma sum_z Z : sum (map (fun p => rotated (oscale kmul (parity k1 kopp p) (on [p] (loc1 Z)))) sites) = N *k (half *k (s1 Z false -k s1 Z true)).
Proof.
  rewrite (sublattices k0 k1 kadd kmul ksub kopp Kr L M HL EL EM half Hh _ (kopp (s1 Z true)) (s1 Z false)); [ring|].
  intros p. rewrite R_scale, (at_1 p). rewrite (rot_at p [o]) by apply nd1. cbn [map]. unfold s1, parity. rewrite <- Z.negb_odd. change (Z.odd (fst p + snd p)) with (odd p). destruct (odd p); cbn; ring.
Qed.
Lemma sum_nn A : rotated (osum k0 kadd (bonds_nn L M) (bond k0 L M (loc2 A))) = N *k (half *k (bx A true +k bx A false)) +k N *k (half *k (by_ A true +k by_ A false)).
Proof.
  rewrite R_sum. unfold bonds_nn, bonds_x, bonds_y. rewrite map_app, (sum_app k0 k1 kadd kmul ksub kopp Kr), !map_map. unfold bond. cbn [fst snd]. f_equal; [apply sum_x | apply sum_y].
Qed.
Lemma sum_nnn B : rotation_invariant 2 (loc2 B) -> rotated (osum k0 kadd (bonds_nnn L M) (bond k0 L M (loc2 B))) = N *k d1 B +k N *k d2 B.
Proof.
  intros HB. rewrite R_sum. unfold bonds_nnn. rewrite map_app, (sum_app k0 k1 kadd kmul ksub kopp Kr), !map_map. unfold bond. cbn [fst snd]. f_equal; [now apply sum_d | now apply sum_a].
Qed.
Lemma value_H j1 j2 hz A B Z U : rotation_invariant 2 (loc2 B) -> rotated (H_j1j2 k0 k1 kadd kmul kopp L M j1 j2 hz A B Z U) =
  N *k (j1 *k (half *k (bx A true +k bx A false +k by_ A true +k by_ A false)) +k j2 *k (d1 B +k d2 B)
        -k hz *k (half *k (s1 Z false -k s1 Z true)) +k half *k (s1 U true +k s1 U false)).
Proof.
  intros HB. unfold H_j1j2. rewrite !R_add, !R_scale, sum_nn, sum_nnn by exact HB. rewrite (R_sum sites (fun p => oscale kmul (parity k1 kopp p) (on [p] (loc1 Z)))), sum_z.
  rewrite (R_sum sites (fun p => on [p] (loc1 U))), sum_u. ring.
Qed.
Lemma bond_swap A p q : symmetric2 k0 d A -> rotated (on [p; q] (loc2 A)) = rotated (on [q; p] (loc2 A)).
Proof. intros HA. apply R_eq. intros s s' Hs Hs'. now apply (on_swap k0 L M d). Qed.
Lemma val_x p A : rotated (on [p; px p] (loc2 A)) = bx A (odd p).
Proof. rewrite at_x, rot_at by apply nd2, w01. unfold bx. cbn [map]. destruct (odd p); reflexivity. Qed.
Lemma val_y p A : rotated (on [p; py p] (loc2 A)) = by_ A (odd p).
Proof. rewrite at_y, rot_at by apply nd2, w02. unfold by_. cbn [map]. destruct (odd p); reflexivity. Qed.
Lemma val_1 p Z : rotated (on [p] (loc1 Z)) = s1 Z (odd p).
Proof. rewrite at_1, rot_at by apply nd1. unfold s1. cbn [map]. destruct (odd p); reflexivity. Qed.
Lemma val_d p B : odd p = false -> rotated (on [p; pxy p] (loc2 B)) = d1 B.
Proof. intros Hp. rewrite at_d, rot_at by apply nd2, w03. cbn [map]. rewrite Hp. apply (none_at [o; (1, 1)]). Qed.
Lemma val_a p B : odd p = false -> rotation_invariant 2 (loc2 B) -> rotated (on [py p; px p] (loc2 B)) = d2 B.
Proof. intros Hp HB. rewrite at_a, rot_at by apply nd2, w21. cbn [map]. rewrite Hp. now apply both_at. Qed.
Lemma value_hp j1 j2 hz A B Z U : symmetric2 k0 d A -> rotation_invariant 2 (loc2 B) ->
  exists t, get_hp k0 k1 kadd kmul ksub kopp half quarter d j1 j2 hz A B Z U o = Ok t /\ good d t /\ rotated (on (plaquette o) (loc4 t)) =
  j1 *k (half *k (bx A true +k bx A false +k by_ A true +k by_ A false)) +k j2 *k (d1 B +k d2 B)
        -k hz *k (half *k (s1 Z false -k s1 Z true)) +k half *k (s1 U true +k s1 U false).
Proof.
  intros HA HB. destruct (hp_j1j2 k0 k1 kadd kmul ksub kopp Kr L M d HL HM half quarter j1 j2 hz A B Z U o) as (t & Et & G & H). exists t. split; [exact Et|]. split; [exact G|].
  transitivity (rotated (oadd kadd (oadd kadd (oadd kadd
    (oscale kmul (half *k j1) (oadd kadd (oadd kadd (oadd kadd (on [o; px o] (loc2 A)) (on [o; py o] (loc2 A))) (on [py o; pxy o] (loc2 A))) (on [pxy o; px o] (loc2 A))))
    (oscale kmul j2 (oadd kadd (on [o; pxy o] (loc2 B)) (on [py o; px o] (loc2 B)))))
    (oscale kmul (kopp (quarter *k hz)) (oadd kadd (oadd kadd (on [o] (loc1 Z)) (oscale kmul (kopp k1) (on [px o] (loc1 Z)))) (oadd kadd (oscale kmul (kopp k1) (on [py o] (loc1 Z))) (on [pxy o] (loc1 Z))))))
    (oscale kmul quarter (oadd kadd (oadd kadd (on [o] (loc1 U)) (on [py o] (loc1 U))) (oadd kadd (on [px o] (loc1 U)) (on [pxy o] (loc1 U))))))).
  { apply R_eq. intros s s' Hs Hs'. specialize (H o s s' Hs Hs'). unfold W in H. rewrite H. unfold B1, B2, oadd, oscale, sgn. cbn [Z.even fst snd Z.add]. unfold coord in *. ring. }
  rewrite !R_add, !R_scale, !R_add, !R_scale.
  rewrite (bond_swap A (pxy o) (px o) HA). change (pxy o) with (py (px o)) at 2. change (pxy o) with (px (py o)) at 1.
  rewrite !val_x, !val_y, !val_1, val_d, val_a by (try exact HB; reflexivity).
  change (odd o) with false. change (odd (py o)) with true. change (odd (px o)) with true. change (odd (pxy o)) with false. rewrite <- quarters.
  ring.
Qed.
End Ham.
