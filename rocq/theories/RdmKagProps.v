(** C80: density matrices of the kagome lattice. *)
From Verif Require Import Base Lattice Tensor Net NetSpec Corners CornersSpec CornersExamples Rdm RdmSpec RdmExamples RdmKag RdmKagSpec RdmKagProofs6 RdmKagExamples.
From Verif Require Ctm.
From Coq Require Import Ring.
Open Scope list_scope.
Open Scope nat_scope.

(** any spins of 2x2 cells; the order of the indices is that of the cells (0,0), (1,0), (0,1), (1,1), within a cell that of spins 0, 1, 2 *)
Theorem C80_rdm2x2 : forall (K : Type) (z o : K) add mul cj d, semi_ring_theory z o add mul eq ->
  forall D, (forall k, D k <> 0) -> forall st e As Cs Ts, sees st e As Cs Ts -> forall c k00 k10 k01 k11,
  NoDup k00 -> NoDup k10 -> NoDup k01 -> NoDup k11 -> spins D d 2 2 ->
  let l := named (hasl k00) 0 0 ++ named (hasl k10) 1 0 ++ named (hasl k01) 0 1 ++ named (hasl k11) 1 1 in
  fits D (kpatch_at cj As Cs Ts 2 2 l c) ->
  exists M, rdm2x2_kagome z o add mul cj d st e c k00 k10 k01 k11 = Ok M
    /\ is_contraction D z o add mul (kpatch_at cj As Cs Ts 2 2 l c) (kpatch_out 2 2 l) M.
Proof. exact @kag22. Qed.
Print Assumptions C80_rdm2x2.
Theorem C80_rdm2x1 : forall (K : Type) (z o : K) add mul cj d, semi_ring_theory z o add mul eq ->
  forall D, (forall k, D k <> 0) -> forall st e As Cs Ts, sees st e As Cs Ts -> forall c k00 k10,
  NoDup k00 -> NoDup k10 -> spins D d 2 1 ->
  let l := named (hasl k00) 0 0 ++ named (hasl k10) 1 0 in fits D (kpatch_at cj As Cs Ts 2 1 l c) ->
  exists M, rdm2x1_kagome z o add mul cj d st e c k00 k10 = Ok M
    /\ is_contraction D z o add mul (kpatch_at cj As Cs Ts 2 1 l c) (kpatch_out 2 1 l) M.
Proof. exact @kag21. Qed.
Print Assumptions C80_rdm2x1.
Theorem C80_rdm1x2 : forall (K : Type) (z o : K) add mul cj d, semi_ring_theory z o add mul eq ->
  forall D, (forall k, D k <> 0) -> forall st e As Cs Ts, sees st e As Cs Ts -> forall c k00 k01,
  NoDup k00 -> NoDup k01 -> spins D d 1 2 ->
  let l := named (hasl k00) 0 0 ++ named (hasl k01) 0 1 in fits D (kpatch_at cj As Cs Ts 1 2 l c) ->
  exists M, rdm1x2_kagome z o add mul cj d st e c k00 k01 = Ok M
    /\ is_contraction D z o add mul (kpatch_at cj As Cs Ts 1 2 l c) (kpatch_out 1 2 l) M.
Proof. exact @kag12. Qed.
Print Assumptions C80_rdm1x2.
(** the up triangle: the three spins in the order s1, s2, s0 *)
Theorem C80_up_triangle : forall (K : Type) (z o : K) add mul cj d, semi_ring_theory z o add mul eq ->
  forall D, (forall k, D k <> 0) -> forall st e As Cs Ts, sees st e As Cs Ts -> forall c, spins D d 2 2 ->
  let l := [up_spin 1; up_spin 2; up_spin 0] in fits D (kpatch_at cj As Cs Ts 2 2 l c) ->
  exists M, rdm2x2_up_triangle_open z o add mul cj d st e c = Ok M
    /\ is_contraction D z o add mul (kpatch_at cj As Cs Ts 2 2 l c) (kpatch_out 2 2 l) M.
Proof. exact @kag_up. Qed.
Print Assumptions C80_up_triangle.
(** documented: the three sites s0, s1, and s2; |ket><bra| = s0,s1,s2;s0',s1',s2' *)
Theorem C80_up_order_refuted : exists (st : ipeps (tensor gi)) e As Cs Ts c D M, sees st e As Cs Ts /\ spins D 2 2 2 /\
  let l := [up_spin 0; up_spin 1; up_spin 2] in let net := kpatch_at gconj As Cs Ts 2 2 l c in
  fits D net /\ kag rdm2x2_up_triangle_open st e c = Ok M /\ ~ is_contraction D g0 g1 gadd gmul net (kpatch_out 2 2 l) M.
Proof. exact up_order. Qed.
Print Assumptions C80_up_order_refuted.
(** an operator on the down triangle of cell (0,0), given as a matrix or with one index per spin, and the norm *)
Theorem C80_dn_triangle : forall (K : Type) (z o : K) add mul cj d, semi_ring_theory z o add mul eq ->
  forall D, (forall k, D k <> 0) -> forall st e As Cs Ts, sees st e As Cs Ts -> forall c six Op, spins D d 2 2 ->
  fits D (kpatch_at cj As Cs Ts 2 2 down c ++ op_net 2 2 six Op) -> fits D (kpatch_at cj As Cs Ts 2 2 [] c) ->
  exists M N, rdm2x2_dn_triangle z o add mul cj d st e c Op = Ok (M, N)
    /\ is_contraction D z o add mul (kpatch_at cj As Cs Ts 2 2 down c ++ op_net 2 2 six Op) [] M
    /\ is_contraction D z o add mul (kpatch_at cj As Cs Ts 2 2 [] c) [] N.
Proof. exact @kag_dn. Qed.
Print Assumptions C80_dn_triangle.
(** missing: vertices outside the unit cell, where the function raises (below) *)
Theorem C80_trace1x1_partial : forall (K : Type) (z o : K) add mul cj d, semi_ring_theory z o add mul eq ->
  forall D st e As Cs Ts, sees st e As Cs Ts -> forall c six Op, spins D d 1 1 ->
  fits D (kpatch_at cj As Cs Ts 1 1 down c ++ op_net 1 1 six Op) -> i_v2s st c = Ok c ->
  exists M, trace1x1_dn_kagome z o add mul cj st e c Op = Ok M
    /\ is_contraction D z o add mul (kpatch_at cj As Cs Ts 1 1 down c ++ op_net 1 1 six Op) [] M.
Proof. exact @kag_trace. Qed.
Print Assumptions C80_trace1x1_partial.
Theorem C80_trace1x1_refuted : exists (st : ipeps (tensor gi)) e As Cs Ts c D Op, sees st e As Cs Ts /\ spins D 2 1 1 /\
  fits D (kpatch_at gconj As Cs Ts 1 1 down c ++ op_net 1 1 false Op) /\ kag0 trace1x1_dn_kagome st e c Op = Err KeyError.
Proof. exact trace_keyerror. Qed.
Print Assumptions C80_trace1x1_refuted.
(** rdm1x1_kagome takes the spins of the ket for its bonds *)
Theorem C80_rdm1x1_refuted : exists (st : ipeps (tensor gi)) e As Cs Ts c D M, sees st e As Cs Ts /\ spins D 2 1 1 /\
  let l := named (hasl [sA; sB; sC]) 0 0 in let net := kpatch_at gconj As Cs Ts 1 1 l c in
  fits D net /\ i_v2s st c = Ok c /\ kag rdm1x1_kagome st e c [sA; sB; sC] = Ok M /\ ~ is_contraction D g0 g1 gadd gmul net (kpatch_out 1 1 l) M.
Proof. exact rdm1x1_scrambled. Qed.
Print Assumptions C80_rdm1x1_refuted.

Example C80_case : sees (st1 kA) (env1 kC kT) (fun _ => kA) (fun _ => pick dirs_C kC) (fun _ => pick dirs_T kT) /\ (forall k, kD [] 2 2 k <> 0) /\
  (forall c, fits (kD [] 2 2) (kpatch_at gconj (fun _ => kA) (fun _ => pick dirs_C kC) (fun _ => pick dirs_T kT) 2 2
     (named (hasl []) 0 0 ++ named (hasl [sB; sA]) 1 0 ++ named (hasl [sA]) 0 1 ++ named (hasl [sC]) 1 1) c) /\ spins (kD [] 2 2) 2 2 2).
Proof. exact (Logic.conj k_sees (Logic.conj (kD_nz [] 2 2) k_fits)). Qed.
Example C80_values :
  (exists M, kag rdm2x2_kagome (st1 kA) (env1 kC kT) (3, -1)%Z [] [sB; sA] [sA] [sC] = Ok M /\ tdims M = repeat 2 8 /\ nth 5 (tdata M) g0 <> nth 6 (tdata M) g0) /\
  (exists M, kag rdm2x1_kagome (st1 kA) (env1 kC kT) (0, 0)%Z [sA; sC] [sB] = Ok M /\ tdims M = repeat 2 6 /\ nth 5 (tdata M) g0 <> nth 6 (tdata M) g0) /\
  (exists M N, kag rdm2x2_dn_triangle (st1 kA) (env1 kC kT) (0, 0)%Z kop = Ok (M, N) /\ tdata M <> tdata N /\ tdata N <> [g0]
     /\ kag rdm2x2_dn_triangle (st1 kA) (env1 kC kT) (0, 0)%Z kop6 = Ok (M, N)) /\
  (exists M, kag0 trace1x1_dn_kagome (st1 kA) (env1 kC kT) (0, 0)%Z kop = Ok M /\ tdata M <> [g0] /\ tdims M = []).
Proof. exact k_values. Qed.
