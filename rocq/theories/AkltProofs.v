From Verif Require Import Base BaseLemmas Tensor TensorLemmas Su2 Su2Spec Su2Proofs Net Aklt AkltSpec.
From Coq Require Import Reals Lra.
Open Scope list_scope.
Open Scope R_scope.

(** ** linear algebra of two spins *)
Section Two.
Variable m : nat.
Notation state := (nat -> nat -> R).
Notation mat := (nat -> nat -> R).
Notation "v == w" := (seq2 m v w) (at level 70).
Lemma s_refl v : v == v. Proof. intros i a _ _. reflexivity. Qed.
Lemma s_sym v w : v == w -> w == v. Proof. intros H i a Hi Ha. symmetry. now apply H. Qed.
Lemma s_trans u v w : u == v -> v == w -> u == w.
Proof. intros H1 H2 i a Hi Ha. rewrite H1 by assumption. now apply H2. Qed.
Lemma sadd_ext v v' w w' : v == v' -> w == w' -> sadd v w == sadd v' w'.
Proof. intros H1 H2 i a Hi Ha. unfold sadd. now rewrite H1, H2. Qed.
Lemma sscale_ext c v v' : v == v' -> sscale c v == sscale c v'.
Proof. intros H i a Hi Ha. unfold sscale. now rewrite H. Qed.
Lemma on1_ext A B v w : meq m A B -> v == w -> on1 m A v == on1 m B w.
Proof. intros H1 H2 i a Hi Ha. apply rsum_ext. intros k Hk. now rewrite H1, H2. Qed.
Lemma on2_ext A B v w : meq m A B -> v == w -> on2 m A v == on2 m B w.
Proof. intros H1 H2 i a Hi Ha. apply rsum_ext. intros k Hk. now rewrite H1, H2. Qed.
Lemma tot_ext A B v w : meq m A B -> v == w -> tot m A v == tot m B w.
Proof. intros H1 H2. apply sadd_ext; [now apply on1_ext|now apply on2_ext]. Qed.
Lemma act_ext O O' v w : meq4 m O O' -> v == w -> act m O v == act m O' w.
Proof. intros H1 H2 i a Hi Ha. apply rsum_ext. intros k Hk. apply rsum_ext. intros l Hl. now rewrite H1, H2. Qed.
Lemma total_ext A A' B B' C C' v w : meq m A A' -> meq m B B' -> meq m C C' -> v == w -> total_spin2 m A B C v == total_spin2 m A' B' C' w.
Proof. intros. apply sadd_ext; [|apply sscale_ext, sadd_ext]; repeat apply tot_ext; assumption. Qed.
Lemma dot_ext A A' B B' C C' v w : meq m A A' -> meq m B B' -> meq m C C' -> v == w -> dot_spins m A B C v == dot_spins m A' B' C' w.
Proof. intros. apply sadd_ext; [|apply sscale_ext, sadd_ext]; apply on1_ext; try apply on2_ext; assumption. Qed.

Lemma rsum_add n f g : rsum n (fun k => f k + g k) = rsum n f + rsum n g.
Proof. induction n as [|n IH]; cbn; [lra|]. rewrite IH. lra. Qed.
Lemma rsum_scale n c f : rsum n (fun k => c * f k) = c * rsum n f.
Proof. induction n as [|n IH]; cbn; [lra|]. rewrite IH. lra. Qed.
Lemma rsum_swap n k f : rsum n (fun i => rsum k (fun j => f i j)) = rsum k (fun j => rsum n (fun i => f i j)).
Proof. induction n as [|n IH]; cbn; [now rewrite rsum_0|]. rewrite IH, <- rsum_add. reflexivity. Qed.

Lemma on1_add A v w : on1 m A (sadd v w) == sadd (on1 m A v) (on1 m A w).
Proof. intros i a _ _. unfold on1, sadd. rewrite <- rsum_add. apply rsum_ext. intros. lra. Qed.
Lemma on2_add A v w : on2 m A (sadd v w) == sadd (on2 m A v) (on2 m A w).
Proof. intros i a _ _. unfold on2, sadd. rewrite <- rsum_add. apply rsum_ext. intros. lra. Qed.
Lemma on1_scale A c v : on1 m A (sscale c v) == sscale c (on1 m A v).
Proof. intros i a _ _. unfold on1, sscale. rewrite <- rsum_scale. apply rsum_ext. intros. lra. Qed.
Lemma on2_scale A c v : on2 m A (sscale c v) == sscale c (on2 m A v).
Proof. intros i a _ _. unfold on2, sscale. rewrite <- rsum_scale. apply rsum_ext. intros. lra. Qed.
Lemma on1_on1 A B v : on1 m A (on1 m B v) == on1 m (mmul m A B) v.
Proof. intros i a _ _. unfold on1, mmul. transitivity (rsum m (fun k => rsum m (fun j => A i k * (B k j * v j a)))).
  { apply rsum_ext. intros. symmetry. apply rsum_scale. }
  rewrite rsum_swap. apply rsum_ext. intros j _. rewrite (Rmult_comm _ (v j a)), <- rsum_scale. apply rsum_ext. intros. lra. Qed.
Lemma on2_on2 A B v : on2 m A (on2 m B v) == on2 m (mmul m A B) v.
Proof. intros i a _ _. unfold on2, mmul. transitivity (rsum m (fun k => rsum m (fun j => A a k * (B k j * v i j)))).
  { apply rsum_ext. intros. symmetry. apply rsum_scale. }
  rewrite rsum_swap. apply rsum_ext. intros j _. rewrite (Rmult_comm _ (v i j)), <- rsum_scale. apply rsum_ext. intros. lra. Qed.
Lemma on2_on1 A B v : on2 m A (on1 m B v) == on1 m B (on2 m A v).
Proof. intros i a _ _. unfold on1, on2. transitivity (rsum m (fun b => rsum m (fun j => A a b * (B i j * v j b)))).
  { apply rsum_ext. intros. symmetry. apply rsum_scale. }
  rewrite rsum_swap. apply rsum_ext. intros j _. rewrite <- rsum_scale. apply rsum_ext. intros. lra. Qed.
Lemma tot_tot A B v : tot m A (tot m B v) ==
  sadd (sadd (on1 m (mmul m A B) v) (on2 m (mmul m A B) v)) (sadd (on1 m A (on2 m B v)) (on1 m B (on2 m A v))).
Proof. intros i a Hi Ha. unfold tot at 1 2. unfold sadd at 1. rewrite (on1_add A _ _ i a Hi Ha), (on2_add A _ _ i a Hi Ha). unfold sadd.
  rewrite (on1_on1 A B v i a Hi Ha), (on2_on2 A B v i a Hi Ha), (on2_on1 A B v i a Hi Ha). lra. Qed.
Lemma on1_madd A B v : on1 m (madd A B) v == sadd (on1 m A v) (on1 m B v).
Proof. intros i a _ _. unfold on1, sadd, madd. rewrite <- rsum_add. apply rsum_ext. intros. lra. Qed.
Lemma on2_madd A B v : on2 m (madd A B) v == sadd (on2 m A v) (on2 m B v).
Proof. intros i a _ _. unfold on2, sadd, madd. rewrite <- rsum_add. apply rsum_ext. intros. lra. Qed.
Lemma on1_mscale A c v : on1 m (mscale c A) v == sscale c (on1 m A v).
Proof. intros i a _ _. unfold on1, sscale, mscale. rewrite <- rsum_scale. apply rsum_ext. intros. lra. Qed.
Lemma on2_mscale A c v : on2 m (mscale c A) v == sscale c (on2 m A v).
Proof. intros i a _ _. unfold on2, sscale, mscale. rewrite <- rsum_scale. apply rsum_ext. intros. lra. Qed.
Lemma on1_id v : on1 m mid v == v.
Proof. intros i a Hi _. unfold on1, mid. rewrite (rsum_one m _ i Hi); [rewrite Nat.eqb_refl; lra|].
  intros k _ N. rewrite (proj2 (Nat.eqb_neq i k)) by congruence. lra. Qed.
Lemma on2_id v : on2 m mid v == v.
Proof. intros i a _ Ha. unfold on2, mid. rewrite (rsum_one m _ a Ha); [rewrite Nat.eqb_refl; lra|].
  intros k _ N. rewrite (proj2 (Nat.eqb_neq a k)) by congruence. lra. Qed.

(** the total spin in terms of the product of the spins *)
Lemma total_dot Sz Sp Sm v : spin_algebra m Sz Sp Sm ->
  total_spin2 m Sz Sp Sm v == sadd (sscale (2 * (spin m * (spin m + 1))) v) (sscale 2 (dot_spins m Sz Sp Sm v)).
Proof. intros (_ & _ & _ & _ & HC & _). intros i a Hi Ha. unfold total_spin2, sadd at 1, sscale at 1. unfold sadd at 1.
  rewrite !(tot_tot _ _ v i a Hi Ha). unfold sadd.
  pose proof (on1_ext _ _ v v HC (s_refl v) i a Hi Ha) as H1. pose proof (on2_ext _ _ v v HC (s_refl v) i a Hi Ha) as H2.
  rewrite (on1_madd _ _ v i a Hi Ha), (on1_mscale _ _ v i a Hi Ha) in H1. rewrite (on2_madd _ _ v i a Hi Ha), (on2_mscale _ _ v i a Hi Ha) in H2. unfold sadd in H1, H2.
  rewrite (on1_mscale _ _ v i a Hi Ha) in H1. rewrite (on2_mscale _ _ v i a Hi Ha) in H2. unfold sscale in H1, H2.
  rewrite (on1_madd _ _ v i a Hi Ha), (on1_id v i a Hi Ha) in H1. rewrite (on2_madd _ _ v i a Hi Ha), (on2_id v i a Hi Ha) in H2. unfold sadd in H1, H2.
  unfold dot_spins, sscale, sadd. lra. Qed.
Lemma dot_scale Sz Sp Sm c v : dot_spins m Sz Sp Sm (sscale c v) == sscale c (dot_spins m Sz Sp Sm v).
Proof. assert (S1 : forall A B, on1 m A (on2 m B (sscale c v)) == sscale c (on1 m A (on2 m B v))).
  { intros A B. eapply s_trans; [|apply on1_scale]. apply on1_ext; [intros ? ? _ _; reflexivity|apply on2_scale]. }
  intros i a Hi Ha. unfold dot_spins, sadd, sscale. fold (sscale c v). rewrite !(S1 _ _ i a Hi Ha). unfold sscale. lra. Qed.

(** an eigenstate of the total spin is one of S1.S2 *)
Definition xJ (J : nat) : R := (INR J * (INR J + 1) - 2 * (spin m * (spin m + 1))) / 2.
Lemma spin_eigen Sz Sp Sm J v : spin_algebra m Sz Sp Sm -> has_spin m Sz Sp Sm J v -> dot_spins m Sz Sp Sm v == sscale (xJ J) v.
Proof. intros HA H i a Hi Ha. specialize (H i a Hi Ha). rewrite (total_dot _ _ _ v HA i a Hi Ha) in H. unfold sadd, sscale, xJ in *. lra. Qed.
Lemma eigen_spin Sz Sp Sm J v : spin_algebra m Sz Sp Sm -> dot_spins m Sz Sp Sm v == sscale (xJ J) v -> has_spin m Sz Sp Sm J v.
Proof. intros HA H i a Hi Ha. specialize (H i a Hi Ha). rewrite (total_dot _ _ _ v HA i a Hi Ha). unfold sadd, sscale, xJ in *. lra. Qed.
Lemma quartic_eigen Sz Sp Sm c1 c2 c3 c4 x v : dot_spins m Sz Sp Sm v == sscale x v ->
  quartic m Sz Sp Sm c1 c2 c3 c4 v == sscale (c1 * x + c2 * (x * x) + c3 * (x * x * x) + c4 * (x * x * x * x)) v.
Proof. intros H. set (X := dot_spins m Sz Sp Sm) in *.
  assert (E : forall c w, w == sscale c v -> X w == sscale (c * x) v).
  { intros c w Hw. apply (s_trans _ (X (sscale c v))); [apply dot_ext; try (intros ? ? _ _; reflexivity); exact Hw|]. apply (s_trans _ (sscale c (X v))); [apply dot_scale|].
    intros i a Hi Ha. unfold sscale. rewrite (H i a Hi Ha). unfold sscale. lra. }
  pose proof (E x _ H) as H2. pose proof (E _ _ H2) as H3. pose proof (E _ _ H3) as H4.
  intros i a Hi Ha. unfold quartic, sadd, sscale. cbv zeta. change (dot_spins m Sz Sp Sm) with X. rewrite (H i a Hi Ha), (H2 i a Hi Ha), (H3 i a Hi Ha), (H4 i a Hi Ha). unfold sscale. ring. Qed.
End Two.
