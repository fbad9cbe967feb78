(** Density matrices of the kagome lattice contract the network of the patch: given tensors, any open spins. *)
From Verif Require Import Base BaseLemmas Lattice Tensor TensorLemmas Net NetSpec NetProofs NetProofs2 NetProofs3 Corners CornersSpec CornersProofs Rdm RdmSpec RdmProofs RdmKag RdmKagSpec RdmKagProofs RdmKagProofs2 RdmKagProofs3 RdmKagRun.
From Coq Require Import Ring ArithRing Permutation.
Open Scope list_scope.
Open Scope nat_scope.
Open Scope res_scope.

Lemma good_some r fac out : good r fac out = true -> exists S', r = Some S' /\ sym_is S' fac out = true.
Proof. destruct r as [S'|]; [|discriminate]. intros H. now exists S'. Qed.

Section R.
Context {K : Type} (z o : K) (add mul : K -> K -> K) (cj : K -> K) (d : nat).
Hypothesis SR : semi_ring_theory z o add mul eq.
Variable D : nat -> nat.
Hypothesis HP : forall k, D k <> 0.
Notation ten := (tensor K).
Notation isc := (is_contraction D z o add mul).
Variables (A : nat -> nat -> ten) (C1 C2 C3 C4 : ten) (Tu Tr Td Tl : nat -> ten).
Notation patch w h l := (kpatch_net w h l cj A C1 C2 C3 C4 Tu Tr Td Tl).
Lemma leaf_at net k M ts : fits D net -> nth_error net k = Some (M, ts) -> rep z o add mul D (env_of net) (leafS k ts) M.
Proof. intros HF E. assert (Hk : k < length net). { apply nth_error_Some. now rewrite E. }
  assert (R := fits_leaf z o add mul SR D net k HF Hk). assert (N := nth_error_nth net k (mkT [] [], []) E).
  rewrite (nth_map_lt fst net k _ (mkT [] [], [])) in R by exact Hk. rewrite (nth_map_lt snd net k _ (mkT [] [], [])) in R by exact Hk. rewrite N in R. exact R. Qed.
Definition t22 := [A 0 0; tmap cj (A 0 0); A 1 0; tmap cj (A 1 0); A 0 1; tmap cj (A 0 1); A 1 1; tmap cj (A 1 1);
  Tu 0; Tu 1; Tr 0; Tr 1; Td 0; Td 1; Tl 0; Tl 1; C1; C2; C3; C4].
Definition t21 := [A 0 0; tmap cj (A 0 0); A 1 0; tmap cj (A 1 0); Tu 0; Tu 1; Tr 0; Td 0; Td 1; Tl 0; C1; C2; C3; C4].
Definition t12 := [A 0 0; tmap cj (A 0 0); A 0 1; tmap cj (A 0 1); Tu 0; Tr 0; Tr 1; Td 0; Tl 0; Tl 1; C1; C2; C3; C4].
Ltac t_net := unfold kpatch_net; cbn [seq flat_map app map]; unfold cell_net, three; rewrite ?spin_app, ?spin_kl; cbn [Nat.eqb andb orb]; rewrite ?orb_false_r; reflexivity.
Lemma net22 s0 s1 s2 s3 : patch 2 2 (l22 s0 s1 s2 s3) = combine t22 (map snd (fac22 s0 s1 s2 s3)).
Proof. unfold l22. t_net. Qed.
Lemma net21 s0 s1 : patch 2 1 (l21 s0 s1) = combine t21 (map snd (fac21 s0 s1)).
Proof. unfold l21. t_net. Qed.
Lemma net12 s0 s1 : patch 1 2 (l12 s0 s1) = combine t12 (map snd (fac12 s0 s1)).
Proof. unfold l12. t_net. Qed.
Ltac lf := match goal with HF : fits _ _ |- _ => refine (leaf_at _ _ _ _ HF _); reflexivity end.

Lemma rdm22 s0 s1 s2 s3 : In s0 subs -> In s1 subs -> In s2 subs -> In s3 subs -> spins D d 2 2 -> fits D (patch 2 2 (l22 s0 s1 s2 s3)) ->
  exists lu ru rd ld M, corner_LU z o add mul cj d C1 (Tu 0) (Tl 0) (A 0 0) s0 = Ok lu /\ corner_RU z o add mul cj d C2 (Tr 0) (Tu 1) (A 1 0) s1 = Ok ru /\
    corner_RD z o add mul cj d C3 (Td 1) (Tr 1) (A 1 1) s3 = Ok rd /\ corner_LD z o add mul cj d C4 (Tl 1) (Td 0) (A 0 1) s2 = Ok ld /\
    rdm2x2_c z o add mul d lu ru rd ld (length s0) (length s1) (length s2) (length s3) = Ok M /\ isc (patch 2 2 (l22 s0 s1 s2 s3)) (kpatch_out 2 2 (l22 s0 s1 s2 s3)) M.
Proof. intros H0 H1 H2 H3 HD HF. rewrite net22 in *.
  destruct (corner_LU_22 z o add mul cj d SR D HP (env_of (combine t22 (map snd (fac22 s0 s1 s2 s3)))) s0 C1 (Tu 0) (Tl 0) (A 0 0) H0 HD) as (lu & E0 & R0); try lf.
  destruct (corner_RU_22 z o add mul cj d SR D HP (env_of (combine t22 (map snd (fac22 s0 s1 s2 s3)))) s1 C2 (Tr 0) (Tu 1) (A 1 0) H1 HD) as (ru & E1 & R1); try lf.
  destruct (corner_RD_22 z o add mul cj d SR D HP (env_of (combine t22 (map snd (fac22 s0 s1 s2 s3)))) s3 C3 (Td 1) (Tr 1) (A 1 1) H3 HD) as (rd & E3 & R3); try lf.
  destruct (corner_LD_22 z o add mul cj d SR D HP (env_of (combine t22 (map snd (fac22 s0 s1 s2 s3)))) s2 C4 (Tl 1) (Td 0) (A 0 1) H2 HD) as (ld & E2 & R2); try lf.
  destruct (good_some _ _ _ (all22_in s0 s1 s2 s3 H0 H1 H2 H3)) as (S' & ES & IS).
  destruct (run22_sound z o add mul d SR D _ s0 s1 s2 s3 lu ru rd ld S' HD R0 R1 R3 R2 ES) as (M & EM & RM).
  exists lu, ru, rd, ld, M. repeat (split; [assumption|]).
  exact (rep_contraction z o add mul SR D _ _ _ _ _ RM IS). Qed.
Lemma rdm21 s0 s1 : In s0 subs -> In s1 subs -> spins D d 2 1 -> fits D (patch 2 1 (l21 s0 s1)) ->
  exists lu ru M, corner_LU z o add mul cj d C1 (Tu 0) (Tl 0) (A 0 0) s0 = Ok lu /\ corner_RU z o add mul cj d C2 (Tr 0) (Tu 1) (A 1 0) s1 = Ok ru /\
    rdm2x1_c z o add mul d lu ru C4 (Td 0) C3 (Td 1) (length s0) (length s1) = Ok M /\ isc (patch 2 1 (l21 s0 s1)) (kpatch_out 2 1 (l21 s0 s1)) M.
Proof. intros H0 H1 HD HF. rewrite net21 in *.
  destruct (corner_LU_21 z o add mul cj d SR D HP (env_of (combine t21 (map snd (fac21 s0 s1)))) s0 C1 (Tu 0) (Tl 0) (A 0 0) H0 HD) as (lu & E0 & R0); try lf.
  destruct (corner_RU_21 z o add mul cj d SR D HP (env_of (combine t21 (map snd (fac21 s0 s1)))) s1 C2 (Tr 0) (Tu 1) (A 1 0) H1 HD) as (ru & E1 & R1); try lf.
  destruct (good_some _ _ _ (all2_in _ s0 s1 all21 H0 H1)) as (S' & ES & IS).
  destruct (run21_sound z o add mul d SR D (env_of (combine t21 (map snd (fac21 s0 s1)))) s0 s1 lu ru C4 (Td 0) C3 (Td 1) S' HD R0 R1) as (M & EM & RM); try lf; [exact ES|].
  exists lu, ru, M. repeat (split; [assumption|]).
  exact (rep_contraction z o add mul SR D _ _ _ _ _ RM IS). Qed.
Lemma rdm12 s0 s1 : In s0 subs -> In s1 subs -> spins D d 1 2 -> fits D (patch 1 2 (l12 s0 s1)) ->
  exists lu ld M, corner_LU z o add mul cj d C1 (Tu 0) (Tl 0) (A 0 0) s0 = Ok lu /\ corner_LD z o add mul cj d C4 (Tl 1) (Td 0) (A 0 1) s1 = Ok ld /\
    rdm1x2_c z o add mul d lu ld C2 (Tr 0) C3 (Tr 1) (length s0) (length s1) = Ok M /\ isc (patch 1 2 (l12 s0 s1)) (kpatch_out 1 2 (l12 s0 s1)) M.
Proof. intros H0 H1 HD HF. rewrite net12 in *.
  destruct (corner_LU_12 z o add mul cj d SR D HP (env_of (combine t12 (map snd (fac12 s0 s1)))) s0 C1 (Tu 0) (Tl 0) (A 0 0) H0 HD) as (lu & E0 & R0); try lf.
  destruct (corner_LD_12 z o add mul cj d SR D HP (env_of (combine t12 (map snd (fac12 s0 s1)))) s1 C4 (Tl 1) (Td 0) (A 0 1) H1 HD) as (ld & E1 & R1); try lf.
  destruct (good_some _ _ _ (all2_in _ s0 s1 all12 H0 H1)) as (S' & ES & IS).
  destruct (run12_sound z o add mul d SR D (env_of (combine t12 (map snd (fac12 s0 s1)))) s0 s1 lu ld C2 (Tr 0) C3 (Tr 1) S' HD R0 R1) as (M & EM & RM); try lf; [exact ES|].
  exists lu, ld, M. repeat (split; [assumption|]).
  exact (rep_contraction z o add mul SR D _ _ _ _ _ RM IS). Qed.
End R.
