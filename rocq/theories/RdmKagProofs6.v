(** Density matrices of the kagome lattice of a state and an environment. *)
From Verif Require Import Base BaseLemmas Lattice Tensor TensorLemmas Net NetSpec NetProofs NetProofs2 NetProofs3 Corners CornersSpec CornersProofs Rdm RdmSpec RdmProofs RdmProofs6 RdmKag RdmKagSpec RdmKagProofs RdmKagProofs2 RdmKagProofs3 RdmKagProofs4 RdmKagProofs5.
From Verif Require Ctm.
From Coq Require Import Ring ArithRing Permutation.
Open Scope list_scope.
Open Scope nat_scope.
Open Scope res_scope.

Lemma abc_cases (k : list abc) : NoDup k -> abc_to_012 k = filter (hasl k) [0; 1; 2] /\ length (abc_to_012 k) = length k /\ In (abc_to_012 k) subs.
Proof. intros N.
  assert (L : length k <= 3).
  { apply (NoDup_incl_length (l' := [sA; sB; sC])); [exact N|]. intros [] _; cbn; auto. }
  destruct k as [|a [|b [|c [|e k]]]]; [..|cbn in L; lia]; clear L.
  - cbn. auto.
  - destruct a; cbn; auto 12.
  - inversion_clear N as [|? ? N1 _]. cbn in N1. destruct a, b; try (exfalso; now auto); cbn; auto 12.
  - inversion_clear N as [|? ? N1 N2]. inversion_clear N2 as [|? ? N3 _]. cbn in N1, N3. destruct a, b, c; try (exfalso; now auto); cbn; auto 12. Qed.

Section S.
Context {K : Type} (z o : K) (add mul : K -> K -> K) (cj : K -> K) (d : nat).
Hypothesis SR : semi_ring_theory z o add mul eq.
Variable D : nat -> nat.
Hypothesis HP : forall k, D k <> 0.
Notation ten := (tensor K).
Notation isc := (is_contraction D z o add mul).
Variables (st : ipeps ten) (e : Ctm.envt ten) (As : coord -> ten) (Cs Ts : coord -> coord -> ten).
Hypothesis HS : sees st e As Cs Ts.
Notation patch w h l c := (kpatch_at cj As Cs Ts w h l c).
Variable c : coord.
Ltac veq := destruct c; unfold vtx, cadd; cbn; f_equal; lia.
Ltac at_vertex v v' := let E := fresh "EV" in assert (E : v = v') by veq;
  repeat match goal with
  | |- context [gA st v] => rewrite (gA_eq _ _ _ _ _ HS v v' E)
  | |- context [gC st e v ?d] => rewrite (gC_eq _ _ _ _ _ HS v v' d E ltac:(cbn; auto 6))
  | |- context [gT st e v ?d] => rewrite (gT_eq _ _ _ _ _ HS v v' d E ltac:(cbn; auto 6)) end; cbn [bind].
Ltac at_shift v v' := let E := fresh "EV" in assert (E : v = v') by veq;
  let k := fresh "k" in let E1 := fresh "EK" in let E2 := fresh "EI" in let HA := fresh "HA" in let HC := fresh "HC" in let HT := fresh "HT" in
  destruct (v2s_eq _ _ _ _ _ HS v v' E) as (k & E1 & E2 & HA & HC & HT); rewrite E1; cbn [bind];
  unfold ru_at, rd_at, ld_at;
  repeat match goal with
  | |- context [gA st k] => rewrite HA
  | |- context [Ctm.getC ten e k ?d] => rewrite (HC d ltac:(cbn; auto 6))
  | |- context [Ctm.getT ten e k ?d] => rewrite (HT d ltac:(cbn; auto 6)) end; cbn [bind].

Lemma cell_eq k i j : NoDup k -> kl i j (abc_to_012 k) = named (hasl k) i j.
Proof. intros N. unfold named, kl. now rewrite (proj1 (abc_cases k N)). Qed.
Lemma kag22 k00 k10 k01 k11 : NoDup k00 -> NoDup k10 -> NoDup k01 -> NoDup k11 -> spins D d 2 2 ->
  let l := named (hasl k00) 0 0 ++ named (hasl k10) 1 0 ++ named (hasl k01) 0 1 ++ named (hasl k11) 1 1 in
  fits D (patch 2 2 l c) ->
  exists M, rdm2x2_kagome z o add mul cj d st e c k00 k10 k01 k11 = Ok M /\ isc (patch 2 2 l c) (kpatch_out 2 2 l) M.
Proof. intros N0 N1 N2 N3 HD l HF. unfold l in *. clear l.
  rewrite <- (cell_eq k00 0 0 N0), <- (cell_eq k10 1 0 N1), <- (cell_eq k01 0 1 N2), <- (cell_eq k11 1 1 N3) in *.
  destruct (abc_cases _ N0) as (_ & L0 & I0), (abc_cases _ N1) as (_ & L1 & I1), (abc_cases _ N2) as (_ & L2 & I2), (abc_cases _ N3) as (_ & L3 & I3).
  destruct (rdm22 z o add mul cj d SR D HP _ _ _ _ _ _ _ _ _ _ _ _ _ I0 I1 I2 I3 HD HF) as (lu & ru & rd & ld & M & E0 & E1 & E3 & E2 & EM & IM).
  exists M. split; [|exact IM]. rewrite L0, L1, L2, L3 in EM. cbn [Nat.sub] in *.
  unfold rdm2x2_kagome, lu_at. at_vertex c (vtx c 0 0). rewrite E0. cbn [bind].
  at_shift (cadd c (1, 0)%Z) (vtx c 1 0). rewrite E1. cbn [bind].
  at_shift (cadd c (1, 1)%Z) (vtx c 1 1). rewrite E3. cbn [bind].
  at_shift (cadd c (0, 1)%Z) (vtx c 0 1). rewrite E2. cbn [bind]. exact EM. Qed.
Lemma kag21 k00 k10 : NoDup k00 -> NoDup k10 -> spins D d 2 1 ->
  let l := named (hasl k00) 0 0 ++ named (hasl k10) 1 0 in fits D (patch 2 1 l c) ->
  exists M, rdm2x1_kagome z o add mul cj d st e c k00 k10 = Ok M /\ isc (patch 2 1 l c) (kpatch_out 2 1 l) M.
Proof. intros N0 N1 HD l HF. unfold l in *. clear l.
  rewrite <- (cell_eq k00 0 0 N0), <- (cell_eq k10 1 0 N1) in *.
  destruct (abc_cases _ N0) as (_ & L0 & I0), (abc_cases _ N1) as (_ & L1 & I1).
  destruct (rdm21 z o add mul cj d SR D HP _ _ _ _ _ _ _ _ _ _ _ I0 I1 HD HF) as (lu & ru & M & E0 & E1 & EM & IM).
  exists M. split; [|exact IM]. rewrite L0, L1 in EM. cbn [Nat.sub] in *.
  unfold rdm2x1_kagome, lu_at. at_vertex c (vtx c 0 0). rewrite E0. cbn [bind].
  at_shift (cadd c (1, 0)%Z) (vtx c 1 0). rewrite E1. cbn [bind]. exact EM. Qed.
Lemma kag12 k00 k01 : NoDup k00 -> NoDup k01 -> spins D d 1 2 ->
  let l := named (hasl k00) 0 0 ++ named (hasl k01) 0 1 in fits D (patch 1 2 l c) ->
  exists M, rdm1x2_kagome z o add mul cj d st e c k00 k01 = Ok M /\ isc (patch 1 2 l c) (kpatch_out 1 2 l) M.
Proof. intros N0 N1 HD l HF. unfold l in *. clear l.
  rewrite <- (cell_eq k00 0 0 N0), <- (cell_eq k01 0 1 N1) in *.
  destruct (abc_cases _ N0) as (_ & L0 & I0), (abc_cases _ N1) as (_ & L1 & I1).
  destruct (rdm12 z o add mul cj d SR D HP _ _ _ _ _ _ _ _ _ _ _ I0 I1 HD HF) as (lu & ld & M & E0 & E1 & EM & IM).
  exists M. split; [|exact IM]. rewrite L0, L1 in EM. cbn [Nat.sub] in *.
  unfold rdm1x2_kagome, lu_at. at_vertex c (vtx c 0 0). rewrite E0. cbn [bind].
  at_shift (cadd c (0, 1)%Z) (vtx c 0 1). rewrite E1. cbn [bind]. exact EM. Qed.
Lemma kag_up : spins D d 2 2 -> let l := [up_spin 1; up_spin 2; up_spin 0] in fits D (patch 2 2 l c) ->
  exists M, rdm2x2_up_triangle_open z o add mul cj d st e c = Ok M /\ isc (patch 2 2 l c) (kpatch_out 2 2 l) M.
Proof. intros HD l HF. change l with up_open in *. clear l.
  destruct (up_triangle z o add mul cj d SR D HP _ _ _ _ _ _ _ _ _ HD HF) as (lu & ru & rd & ld & M & E0 & E1 & E3 & E2 & EM & IM).
  exists M. split; [|exact IM]. cbn [Nat.sub] in *.
  unfold rdm2x2_up_triangle_open, lu_at. at_vertex c (vtx c 0 0). rewrite E0. cbn [bind].
  at_shift (cadd c (1, 0)%Z) (vtx c 1 0). rewrite E1. cbn [bind].
  at_shift (cadd c (1, 1)%Z) (vtx c 1 1). rewrite E3. cbn [bind].
  at_shift (cadd c (0, 1)%Z) (vtx c 0 1). rewrite E2. cbn [bind]. exact EM. Qed.
Lemma kag_dn six Op : spins D d 2 2 -> fits D (patch 2 2 down c ++ op_net 2 2 six Op) -> fits D (patch 2 2 [] c) ->
  exists M N, rdm2x2_dn_triangle z o add mul cj d st e c Op = Ok (M, N)
    /\ isc (patch 2 2 down c ++ op_net 2 2 six Op) [] M /\ isc (patch 2 2 [] c) [] N.
Proof. intros HD HF HF'.
  destruct (dn_op z o add mul cj d SR D HP _ _ _ _ _ _ _ _ _ six Op HD HF) as (Om & a & lu & ru & rd & ld & M & EO & EA & EL & E1 & E3 & E2 & EM & IM).
  destruct (dn_id z o add mul cj d SR D HP _ _ _ _ _ _ _ _ _ HD HF') as (a' & lu' & ru' & rd' & ld' & N & EA' & EL' & E1' & E3' & E2' & EN & IN).
  exists M, N. split; [|split; assumption]. cbn [Nat.sub] in *.
  rewrite E1 in E1'. injection E1' as <-. rewrite E2 in E2'. injection E2' as <-. rewrite E3 in E3'. injection E3' as <-.
  unfold rdm2x2_dn_triangle. rewrite EO. cbn [bind]. at_vertex c (vtx c 0 0). rewrite EA'. cbn [bind]. rewrite EA. cbn [bind]. rewrite EL. cbn [bind]. rewrite EL'. cbn [bind].
  at_shift (cadd c (1, 0)%Z) (vtx c 1 0). rewrite E1. cbn [bind].
  at_shift (cadd c (1, 1)%Z) (vtx c 1 1). rewrite E3. cbn [bind].
  at_shift (cadd c (0, 1)%Z) (vtx c 0 1). rewrite E2. cbn [bind]. rewrite EM. cbn [bind]. rewrite EN. reflexivity. Qed.
Lemma kag_trace six Op : spins D d 1 1 -> fits D (patch 1 1 down c ++ op_net 1 1 six Op) -> i_v2s st c = Ok c ->
  exists M, trace1x1_dn_kagome z o add mul cj st e c Op = Ok M /\ isc (patch 1 1 down c ++ op_net 1 1 six Op) [] M.
Proof. intros HD HF HR.
  destruct (trace_mat z o add mul cj d SR D _ _ _ _ _ _ _ _ _ six Op HD HF) as (M & EM & IM).
  exists M. split; [|exact IM]. cbn [Nat.sub] in *. unfold trace1x1_dn_kagome. at_vertex c (vtx c 0 0).
  destruct (v2s_eq _ _ _ _ _ HS c (vtx c 0 0) EV) as (k & EK & _ & HA & HC & HT). rewrite HR in EK. injection EK as <-.
  rewrite HC by (cbn; auto 6). cbn [bind]. exact EM. Qed.
End S.
