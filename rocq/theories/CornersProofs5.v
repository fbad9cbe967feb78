(** The two halves of the 2x2 patches used by a directional move, and the right move when the
    bonds of the site have different dimensions. *)
From Verif Require Import Base BaseLemmas Tensor TensorLemmas Net NetSpec NetProofs NetProofs2 NetProofs3 Corners CornersSpec CornersProofs CornersProofs3 CornersProofs4.
From Coq Require Import Ring ArithRing Permutation.
Open Scope list_scope.
Open Scope nat_scope.
Open Scope res_scope.

Lemma bind3 {A B C E} (m : res A) (n : res B) (f : A -> B -> res C) (k : C -> res E) h :
  (a <- m ;; b <- n ;; f a b) = Ok h -> (a <- m ;; b <- n ;; x <- f a b ;; k x) = k h.
Proof. destruct m as [a|]; cbn; [|discriminate]. destruct n as [b|]; cbn; [|discriminate]. intros ->. reflexivity. Qed.
Lemma layers4 {X Y R} (m1 m2 m3 m4 : res X) (f g : X -> X -> res Y) (H : X -> X -> X -> X -> res R) (r1 r2 : Y) r :
  (a <- m1 ;; b <- m2 ;; f a b) = Ok r1 -> (a <- m3 ;; b <- m4 ;; g a b) = Ok r2 ->
  (forall a b c d, f a b = Ok r1 -> g c d = Ok r2 -> H a b c d = Ok r) ->
  (a <- m1 ;; b <- m2 ;; c <- m3 ;; d <- m4 ;; H a b c d) = Ok r.
Proof. destruct m1; cbn; [|discriminate]. destruct m2; cbn; [|discriminate]. intros E1.
  destruct m3; cbn; [|discriminate]. destruct m4; cbn; [|discriminate]. intros E2 X0. now apply X0. Qed.

Section C.
Context {K : Type} (z o : K) (add mul : K -> K -> K) (cj : K -> K).
Hypothesis SR : semi_ring_theory z o add mul eq.
Notation ten := (tensor K).
Notation isc D := (is_contraction D z o add mul).
Notation layer := (layer z o add mul cj).
Variables D D' : nat -> nat.

Ltac halves L1 L2 := intros H1 H2; destruct (L1 H1) as (h1 & A1 & B1 & I1); destruct (L2 H2) as (h2 & A2 & B2 & I2);
  exists h1, h2; split; [|split; [|split; assumption]];
  [unfold halves_UP, halves_LEFT, halves_DOWN, halves_RIGHT; rewrite (bind3 _ _ _ _ _ A1), (bind3 _ _ _ _ _ A2); reflexivity
  |eapply layers4; [exact B1|exact B2|]; intros a b c d E1 E2; unfold halves_UP, halves_LEFT, halves_DOWN, halves_RIGHT;
   rewrite (bind3 _ _ _ _ _ E1), (bind3 _ _ _ _ _ E2); reflexivity].
Lemma halves_UP_ok k1 k2 k3 k4 :
  fits D (half_net cj net_RU net_RD true false k1 k2) -> fits D' (half_net cj net_LU net_LD false false k3 k4) ->
  exists h1 h2, halves_UP z o add mul cj true k1 k2 k3 k4 = Ok (h1, h2)
    /\ (a <- layer k1 ;; b <- layer k2 ;; c <- layer k3 ;; d <- layer k4 ;; halves_UP z o add mul cj false a b c d) = Ok (h1, h2)
    /\ isc D (half_net cj net_RU net_RD true false k1 k2) (half_out true false) h1
    /\ isc D' (half_net cj net_LU net_LD false false k3 k4) (half_out false false) h2.
Proof. halves (half_RU_RD z o add mul cj SR D k1 k2) (half_LU_LD z o add mul cj SR D' k3 k4). Qed.
Lemma halves_LEFT_ok k1 k2 k3 k4 :
  fits D (half_net cj net_LU net_RU true false k1 k2) -> fits D' (half_net cj net_LD net_RD true true k3 k4) ->
  exists h1 h2, halves_LEFT z o add mul cj true k1 k2 k3 k4 = Ok (h1, h2)
    /\ (a <- layer k1 ;; b <- layer k2 ;; c <- layer k3 ;; d <- layer k4 ;; halves_LEFT z o add mul cj false a b c d) = Ok (h1, h2)
    /\ isc D (half_net cj net_LU net_RU true false k1 k2) (half_out true false) h1
    /\ isc D' (half_net cj net_LD net_RD true true k3 k4) (half_out true true) h2.
Proof. halves (half_LU_RU z o add mul cj SR D k1 k2) (half_LD_RD z o add mul cj SR D' k3 k4). Qed.
Lemma halves_DOWN_ok k1 k2 k3 k4 :
  fits D (half_net cj net_LD net_LU false false k1 k2) -> fits D' (half_net cj net_RD net_RU false true k3 k4) ->
  exists h1 h2, halves_DOWN z o add mul cj true k1 k2 k3 k4 = Ok (h1, h2)
    /\ (a <- layer k1 ;; b <- layer k2 ;; c <- layer k3 ;; d <- layer k4 ;; halves_DOWN z o add mul cj false a b c d) = Ok (h1, h2)
    /\ isc D (half_net cj net_LD net_LU false false k1 k2) (half_out false false) h1
    /\ isc D' (half_net cj net_RD net_RU false true k3 k4) (half_out false true) h2.
Proof. halves (half_LD_LU z o add mul cj SR D k1 k2) (half_RD_RU z o add mul cj SR D' k3 k4). Qed.
Lemma halves_RIGHT_ok k1 k2 k3 k4 :
  fits D (half_net cj net_RD net_LD true true k1 k2) -> fits D' (half_net cj net_RU net_LU false true k3 k4) ->
  exists h1 h2, halves_RIGHT z o add mul cj true k1 k2 k3 k4 = Ok (h1, h2)
    /\ (a <- layer k1 ;; b <- layer k2 ;; c <- layer k3 ;; d <- layer k4 ;; halves_RIGHT z o add mul cj false a b c d) = Ok (h1, h2)
    /\ isc D (half_net cj net_RD net_LD true true k1 k2) (half_out true true) h1
    /\ isc D' (half_net cj net_RU net_LU false true k3 k4) (half_out false true) h2.
Proof. halves (half_RD_LD z o add mul cj SR D k1 k2) (half_RU_LU z o add mul cj SR D' k3 k4). Qed.
End C.

Section R.
Context {K : Type} (z o : K) (add mul : K -> K -> K) (cj : K -> K).
Hypothesis SR : semi_ring_theory z o add mul eq.
(** ctmrg.py:759 *)
Lemma abs_RIGHT_error D1 D2 D (C1 T1 T T2 C2 A P2 Pt2 P1 Pt1 : tensor K) :
  fits D1 (net_C_RIGHT1 C1 T1 Pt1) -> fits D2 (net_C_RIGHT2 C2 T2 P2) -> fits D (net_T_RIGHT T Pt2 P1 A (tmap cj A)) ->
  D 1 <> D 5 -> D 0 <> 0 -> D 3 <> 0 ->
  absorb_RIGHT z o add mul cj C1 T1 T T2 C2 A P2 Pt2 P1 Pt1 true = Err RuntimeError.
Proof. intros H1 H2 H3 HN H0 HB.
  destruct (abs_RIGHT_C1 z o add mul SR D1 C1 T1 Pt1 H1) as (n1 & E1 & I1).
  destruct (abs_RIGHT_C2 z o add mul SR D2 C2 T2 P2 H2) as (n2 & E2 & I2).
  unfold absorb_RIGHT. cbn [negb]. glue_binds E1. glue_binds E2.
  pose proof (conj_dims D cj A _ 3 _ _ H3 eq_refl ltac:(cbn; lia) 4 eq_refl ltac:(cbn; lia)) as EQ.
  cbn in EQ. injection EQ; intros.
  unfold fits in H3. rewrite Forall_forall in H3.
  assert (HT := H3 _ (nth_In (net_T_RIGHT T Pt2 P1 A (tmap cj A)) (mkT [] [], []) (n := 0) ltac:(cbn; lia))).
  assert (HA := H3 _ (nth_In (net_T_RIGHT T Pt2 P1 A (tmap cj A)) (mkT [] [], []) (n := 3) ltac:(cbn; lia))).
  cbn in HT, HA. destruct HT as [W Hd], HA as [_ HA].
  unfold view, treshape. replace (length (tdata T) =? _) with false; [reflexivity|].
  symmetry. apply Nat.eqb_neq. unfold twf in W. rewrite W. unfold size. rewrite Hd, HA. cbn [prod_dims fold_right map nth ldim FF].
  intros X. apply Nat.mul_cancel_l in X; [|exact H0]. rewrite Nat.mul_1_r in X. rewrite !Nat.mul_assoc in X.
  apply Nat.mul_cancel_r in X; [|exact HB]. rewrite <- H in X. destruct (Nat.lt_total (D 1) (D 5)) as [L|[L|L]]; nia. Qed.
End R.
