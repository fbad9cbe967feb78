(** C36, C63, C64: reduced density matrices and expectation values of operators on small patches of sites in
    their environment.  [sees st e As Cs Ts]: the site tensor As v and the environment tensors Cs v d, Ts v d are
    found at every vertex v of the lattice.  [patch_at .. w h l c]: the network of the w x h patch with upper left
    vertex c, the physical indices of the sites l open.  [fits D net]: the dimensions of the tensors are those of
    the bonds.  The matrices are those before _sym_pos_def_rdm (C37). *)
From Coq Require Import Ring.
From Verif Require Import Base Lattice Tensor Net NetSpec Corners CornersSpec CornersExamples Rdm RdmSpec RdmProofs6 RdmExamples.
From Verif Require Ctm.
Open Scope list_scope.
Open Scope nat_scope.
Open Scope res_scope.

(** The modes "sl" and "dl" give the same matrices for two sites... *)
Theorem C36_rdm2x1 {K : Type} (z o : K) (add mul : K -> K -> K) (cj : K -> K) : semi_ring_theory z o add mul eq ->
  forall D (st : ipeps (tensor K)) e As Cs Ts, sees st e As Cs Ts -> forall c,
  fits D (patch_at cj As Cs Ts 2 1 [(0, 0); (1, 0)] c) -> rdm2x1_sl z o add mul cj st e c = rdm2x1_dl z o add mul cj st e c.
Proof. intros SR D st e As Cs Ts HS c HF. destruct (rdm2x1_ok z o add mul cj SR D st e As Cs Ts HS c HF) as (M & E1 & E2 & _). exact (eq_trans E1 (eq_sym E2)). Qed.
Print Assumptions C36_rdm2x1.

(** ... in a row and in a column ... *)
Theorem C36_rdm1x2 {K : Type} (z o : K) (add mul : K -> K -> K) (cj : K -> K) : semi_ring_theory z o add mul eq ->
  forall D (st : ipeps (tensor K)) e As Cs Ts, sees st e As Cs Ts -> forall c,
  fits D (patch_at cj As Cs Ts 1 2 [(0, 0); (0, 1)] c) -> rdm1x2_sl z o add mul cj st e c = rdm1x2_dl z o add mul cj st e c.
Proof. intros SR D st e As Cs Ts HS c HF. destruct (rdm1x2_ok z o add mul cj SR D st e As Cs Ts HS c HF) as (M & E1 & E2 & _). exact (eq_trans E1 (eq_sym E2)). Qed.
Print Assumptions C36_rdm1x2.

(** ... and for one site.  Partial: only at the vertices of the unit cell, see C63_one_site_refuted. *)
Theorem C36_rdm1x1_partial {K : Type} (z o : K) (add mul : K -> K -> K) (cj : K -> K) : semi_ring_theory z o add mul eq ->
  forall D (st : ipeps (tensor K)) e As Cs Ts, sees st e As Cs Ts -> forall c,
  fits D (patch_at cj As Cs Ts 1 1 [(0, 0)] c) -> i_v2s st c = Ok c ->
  rdm1x1_sl z o add mul cj st e c None = rdm1x1_dl z o add mul cj st e c None.
Proof. intros SR D st e As Cs Ts HS c HF HR. destruct (rdm1x1_ok z o add mul cj SR D st e As Cs Ts HS c HF) as (M & E1 & E2 & _). exact (eq_trans E1 (eq_sym (E2 HR))). Qed.
Print Assumptions C36_rdm1x1_partial.

(** One site.  Partial: the mode "dl" needs a vertex of the unit cell, see C63_one_site_refuted.  *)
Theorem C63_one_site_partial {K : Type} (z o : K) (add mul : K -> K -> K) (cj : K -> K) : semi_ring_theory z o add mul eq ->
  forall D (st : ipeps (tensor K)) e As Cs Ts, sees st e As Cs Ts -> forall c,
  fits D (patch_at cj As Cs Ts 1 1 [(0, 0)] c) ->
  exists M, rdm1x1_sl z o add mul cj st e c None = Ok M /\ (i_v2s st c = Ok c -> rdm1x1_dl z o add mul cj st e c None = Ok M) /\
    is_contraction D z o add mul (patch_at cj As Cs Ts 1 1 [(0, 0)] c) (patch_out 1 1 [(0, 0)]) M.
Proof. exact (rdm1x1_ok z o add mul cj). Qed.
Print Assumptions C63_one_site_partial.

(** One site with an operator Op inserted.  *)
Theorem C63_one_site_operator_partial {K : Type} (z o : K) (add mul : K -> K -> K) (cj : K -> K) : semi_ring_theory z o add mul eq ->
  forall D (st : ipeps (tensor K)) e As Cs Ts, sees st e As Cs Ts -> forall c Op,
  fits D (patch_at cj As Cs Ts 1 1 [(0, 0)] c ++ [(Op, [V (pbra 1 1 0 0); V (pket 1 1 0 0)])]) ->
  exists M, rdm1x1_sl z o add mul cj st e c (Some Op) = Ok M /\ (i_v2s st c = Ok c -> rdm1x1_dl z o add mul cj st e c (Some Op) = Ok M) /\
    is_contraction D z o add mul (patch_at cj As Cs Ts 1 1 [(0, 0)] c ++ [(Op, [V (pbra 1 1 0 0); V (pket 1 1 0 0)])]) [] M.
Proof. exact (rdm1x1_op_ok z o add mul cj). Qed.
Print Assumptions C63_one_site_operator_partial.

(** Away from the unit cell rdm1x1 raises in the mode "dl", while the mode "sl" gives the matrix. *)
Theorem C63_one_site_refuted : exists (st : ipeps (tensor gi)) e As Cs Ts c D M, sees st e As Cs Ts /\
  fits D (patch_at gconj As Cs Ts 1 1 [(0, 0)] c) /\ rdm1x1_sl g0 g1 gadd gmul gconj st e c None = Ok M /\
  rdm1x1_dl g0 g1 gadd gmul gconj st e c None = Err KeyError.
Proof. exact rdm1x1_dl_keyerror. Qed.
Print Assumptions C63_one_site_refuted.

(** rdm2x1: the vertex c and its right neighbour. *)
Theorem C63_two_sites_row {K : Type} (z o : K) (add mul : K -> K -> K) (cj : K -> K) : semi_ring_theory z o add mul eq ->
  forall D (st : ipeps (tensor K)) e As Cs Ts, sees st e As Cs Ts -> forall c,
  fits D (patch_at cj As Cs Ts 2 1 [(0, 0); (1, 0)] c) ->
  exists M, rdm2x1_sl z o add mul cj st e c = Ok M /\ rdm2x1_dl z o add mul cj st e c = Ok M /\ 
    is_contraction D z o add mul (patch_at cj As Cs Ts 2 1 [(0, 0); (1, 0)] c) (patch_out 2 1 [(0, 0); (1, 0)]) M.
Proof. exact (rdm2x1_ok z o add mul cj). Qed.
Print Assumptions C63_two_sites_row.

(** rdm1x2: the vertex c and the one below. *)
Theorem C63_two_sites_column {K : Type} (z o : K) (add mul : K -> K -> K) (cj : K -> K) : semi_ring_theory z o add mul eq ->
  forall D (st : ipeps (tensor K)) e As Cs Ts, sees st e As Cs Ts -> forall c,
  fits D (patch_at cj As Cs Ts 1 2 [(0, 0); (0, 1)] c) ->
  exists M, rdm1x2_sl z o add mul cj st e c = Ok M /\ rdm1x2_dl z o add mul cj st e c = Ok M /\ 
    is_contraction D z o add mul (patch_at cj As Cs Ts 1 2 [(0, 0); (0, 1)] c) (patch_out 1 2 [(0, 0); (0, 1)]) M.
Proof. exact (rdm1x2_ok z o add mul cj). Qed.
Print Assumptions C63_two_sites_column.

(** rdm2x2_NNN_11: c and c + (1,1). *)
Theorem C63_diagonal {K : Type} (z o : K) (add mul : K -> K -> K) (cj : K -> K) : semi_ring_theory z o add mul eq ->
  forall D (st : ipeps (tensor K)) e As Cs Ts, sees st e As Cs Ts -> forall c,
  fits D (patch_at cj As Cs Ts 2 2 [(0, 0); (1, 1)] c) ->
  exists M, rdm2x2_NNN_11 z o add mul cj st e c = Ok M /\ 
    is_contraction D z o add mul (patch_at cj As Cs Ts 2 2 [(0, 0); (1, 1)] c) (patch_out 2 2 [(0, 0); (1, 1)]) M.
Proof. exact (nnn11_ok z o add mul cj). Qed.
Print Assumptions C63_diagonal.

(** rdm2x2_NNN_1n1, with and without opt_einsum: c and c + (1,-1). *)
Theorem C63_antidiagonal {K : Type} (z o : K) (add mul : K -> K -> K) (cj : K -> K) : semi_ring_theory z o add mul eq ->
  forall D (st : ipeps (tensor K)) e As Cs Ts, sees st e As Cs Ts -> forall c,
  fits D (patch_at cj As Cs Ts 2 2 [(0, 1); (1, 0)] (cadd c (0, -1)%Z)) ->
  exists M, rdm2x2_NNN_1n1_oe z o add mul cj st e c = Ok M /\ rdm2x2_NNN_1n1_legacy z o add mul cj st e c = Ok M /\ 
    is_contraction D z o add mul (patch_at cj As Cs Ts 2 2 [(0, 1); (1, 0)] (cadd c (0, -1)%Z)) (patch_out 2 2 [(0, 1); (1, 0)]) M.
Proof. exact (nnn1n1_ok z o add mul cj). Qed.
Print Assumptions C63_antidiagonal.

(** rdm2x2: four sites, with opt_einsum (all sites open) and without. *)
Theorem C63_plaquette {K : Type} (z o : K) (add mul : K -> K -> K) (cj : K -> K) : semi_ring_theory z o add mul eq ->
  forall D (st : ipeps (tensor K)) e As Cs Ts, sees st e As Cs Ts -> forall c,
  fits D (patch_at cj As Cs Ts 2 2 [(0, 0); (1, 0); (0, 1); (1, 1)] c) ->
  exists M, rdm2x2_oe z o add mul cj st e c [0; 1; 2; 3] = Ok M /\ rdm2x2_legacy z o add mul cj st e c = Ok M /\
    is_contraction D z o add mul (patch_at cj As Cs Ts 2 2 [(0, 0); (1, 0); (0, 1); (1, 1)] c) (patch_out 2 2 [(0, 0); (1, 0); (0, 1); (1, 1)]) M.
Proof. exact (rdm2x2_ok z o add mul cj). Qed.
Print Assumptions C63_plaquette.

(** Any choice of open sites: the indices appear in the order of the sites, whatever the order of the argument. *)
Theorem C63_plaquette_open {K : Type} (z o : K) (add mul : K -> K -> K) (cj : K -> K) : semi_ring_theory z o add mul eq ->
  forall D (st : ipeps (tensor K)) e As Cs Ts, sees st e As Cs Ts -> forall c open,
  NoDup open -> Forall (fun k => k < 4) open -> fits D (patch_at cj As Cs Ts 2 2 (named_sites open) c) ->
  exists M, rdm2x2_oe z o add mul cj st e c open = Ok M /\ is_contraction D z o add mul (patch_at cj As Cs Ts 2 2 (named_sites open) c) (patch_out 2 2 (named_sites open)) M.
Proof. exact (oe_named z o add mul cj). Qed.
Print Assumptions C63_plaquette_open.

(** Repeated or unknown sites are refused. *)
Theorem C63_plaquette_refused {K : Type} (z o : K) (add mul : K -> K -> K) (cj : K -> K) :
  forall (st : ipeps (tensor K)) e c open, ~ NoDup open \/ ~ Forall (fun k => k < 4) open ->
  rdm2x2_oe z o add mul cj st e c open = Err AssertionError.
Proof. exact (oe_bad z o add mul cj). Qed.
Print Assumptions C63_plaquette_refused.

Example C63_example : sees (st1 xA) (env1 xC xT) (fun _ => xA) (fun _ => pick dirs_C xC) (fun _ => pick dirs_T xT) /\
  (forall c, fits (xD 1 1) (patch_at gconj (fun _ => xA) (fun _ => pick dirs_C xC) (fun _ => pick dirs_T xT) 1 1 [(0, 0)] c)
     /\ fits (xD 2 1) (patch_at gconj (fun _ => xA) (fun _ => pick dirs_C xC) (fun _ => pick dirs_T xT) 2 1 [(0, 0); (1, 0)] c)) /\
  (exists M, rdm1x1_sl g0 g1 gadd gmul gconj (st1 xA) (env1 xC xT) (0, 0)%Z None = Ok M /\ rdm1x1_dl g0 g1 gadd gmul gconj (st1 xA) (env1 xC xT) (0, 0)%Z None = Ok M /\
     tdims M = [2; 2] /\ nth 1 (tdata M) g0 <> gconj (nth 2 (tdata M) g0)) /\
  (exists M, rdm2x1_sl g0 g1 gadd gmul gconj (st1 xA) (env1 xC xT) (4, 7)%Z = Ok M /\ tdims M = [2; 2; 2; 2] /\ hd g0 (tdata M) <> g0).
Proof. exact (Logic.conj x_sees (Logic.conj x_fits x_values)). Qed.

(** eval_mpo_rdm2x2_oe: the expectation value, not normalized, of an operator given as a chain of four tensors. *)
Theorem C64_mpo_2x2 {K : Type} (z o : K) (add mul : K -> K -> K) (cj : K -> K) : semi_ring_theory z o add mul eq ->
  forall D (st : ipeps (tensor K)) e As Cs Ts, sees st e As Cs Ts -> forall c m0 m1 m2 m3,
  fits D (patch_at cj As Cs Ts 2 2 [(0, 0); (1, 0); (0, 1); (1, 1)] c ++ mpo_net 2 2 [(0, 0); (1, 0); (0, 1); (1, 1)] [m0; m1; m2; m3]) ->
  exists M, mpo2x2 z o add mul cj st e c [m0; m1; m2; m3] = Ok M /\ is_contraction D z o add mul (patch_at cj As Cs Ts 2 2 [(0, 0); (1, 0); (0, 1); (1, 1)] c ++ mpo_net 2 2 [(0, 0); (1, 0); (0, 1); (1, 1)] [m0; m1; m2; m3]) [] M.
Proof. exact (mpo2x2_ok z o add mul cj). Qed.
Print Assumptions C64_mpo_2x2.

(** eval_mpo_rdm3x1_oe, three sites in a column.  Partial: the bonds to the right of the second and the third
    site must have the same dimension, see C64_mpo_3x1_refuted. *)
Theorem C64_mpo_3x1_partial {K : Type} (z o : K) (add mul : K -> K -> K) (cj : K -> K) : semi_ring_theory z o add mul eq ->
  forall D (st : ipeps (tensor K)) e As Cs Ts, sees st e As Cs Ts -> forall c m0 m1 m2,
  fits D (patch_at cj As Cs Ts 1 3 [(0, 0); (0, 1); (0, 2)] c ++ mpo_net 1 3 [(0, 0); (0, 1); (0, 2)] [m0; m1; m2]) -> D (hket 1 3 1 1) = D (hket 1 3 1 2) ->
  exists M, mpo3x1 z o add mul cj st e c [m0; m1; m2] = Ok M /\ is_contraction D z o add mul (patch_at cj As Cs Ts 1 3 [(0, 0); (0, 1); (0, 2)] c ++ mpo_net 1 3 [(0, 0); (0, 1); (0, 2)] [m0; m1; m2]) [] M.
Proof. exact (mpo3x1_ok z o add mul cj). Qed.
Print Assumptions C64_mpo_3x1_partial.

(** With different dimensions eval_mpo_rdm3x1_oe raises. *)
Theorem C64_mpo_3x1_refuted : exists (st : ipeps (tensor gi)) e As Cs Ts c D m0 m1 m2, sees st e As Cs Ts /\
  let l := [(0, 0); (0, 1); (0, 2)] in fits D (patch_at gconj As Cs Ts 1 3 l c ++ mpo_net 1 3 l [m0; m1; m2]) /\
  mpo3x1 g0 g1 gadd gmul gconj st e c [m0; m1; m2] = Err RuntimeError.
Proof. exact mpo3x1_raises. Qed.
Print Assumptions C64_mpo_3x1_refuted.

(** eval_mpo_rdm1x3_oe, three sites in a row, does not evaluate the network: the ket and the bra of the third
    site are connected to the same index of the upper half-row. *)
Theorem C64_mpo_1x3_refuted : exists (st : ipeps (tensor gi)) e As Cs Ts c D m0 m1 m2 M, sees st e As Cs Ts /\
  let l := [(0, 0); (1, 0); (2, 0)] in let net := patch_at gconj As Cs Ts 3 1 l c ++ mpo_net 3 1 l [m0; m1; m2] in
  fits D net /\ mpo1x3 g0 g1 gadd gmul gconj st e c [m0; m1; m2] = Ok M /\ ~ is_contraction D g0 g1 gadd gmul net [] M.
Proof. exact mpo1x3_wrong. Qed.
Print Assumptions C64_mpo_1x3_refuted.

(** eval_mpo_rdm2x1_sl: numerator R, with a two-site operator as a chain of four tensors, and norm I, the patch
    without open indices. *)
Theorem C64_mps_row {K : Type} (z o : K) (add mul : K -> K -> K) (cj : K -> K) : semi_ring_theory z o add mul eq ->
  forall D (st : ipeps (tensor K)) e As Cs Ts, sees st e As Cs Ts -> forall c m0 m1 m2 m3,
  fits D (patch_at cj As Cs Ts 2 1 [(0, 0); (1, 0)] c ++ mps_net 2 1 [(0, 0); (1, 0)] (drop_first m0) m1 m2 (drop_last m3)) -> size m0 0 = 1 -> last (tdims m3) 0 = 1 ->
  exists R I, eval_mpo_rdm2x1 z o add mul cj st e c [m0; m1; m2; m3] = Ok (R, I) /\
    is_contraction D z o add mul (patch_at cj As Cs Ts 2 1 [(0, 0); (1, 0)] c ++ mps_net 2 1 [(0, 0); (1, 0)] (drop_first m0) m1 m2 (drop_last m3)) [] R /\ is_contraction D z o add mul (patch_at cj As Cs Ts 2 1 [] c) [] I.
Proof. exact (eval_2x1_ok z o add mul cj). Qed.
Print Assumptions C64_mps_row.

(** eval_mpo_rdm1x2_sl. *)
Theorem C64_mps_column {K : Type} (z o : K) (add mul : K -> K -> K) (cj : K -> K) : semi_ring_theory z o add mul eq ->
  forall D (st : ipeps (tensor K)) e As Cs Ts, sees st e As Cs Ts -> forall c m0 m1 m2 m3,
  fits D (patch_at cj As Cs Ts 1 2 [(0, 0); (0, 1)] c ++ mps_net 1 2 [(0, 0); (0, 1)] (drop_first m0) m1 m2 (drop_last m3)) -> size m0 0 = 1 -> last (tdims m3) 0 = 1 ->
  exists R I, eval_mpo_rdm1x2 z o add mul cj st e c [m0; m1; m2; m3] = Ok (R, I) /\
    is_contraction D z o add mul (patch_at cj As Cs Ts 1 2 [(0, 0); (0, 1)] c ++ mps_net 1 2 [(0, 0); (0, 1)] (drop_first m0) m1 m2 (drop_last m3)) [] R /\ is_contraction D z o add mul (patch_at cj As Cs Ts 1 2 [] c) [] I.
Proof. exact (eval_1x2_ok z o add mul cj). Qed.
Print Assumptions C64_mps_column.

(** eval_mpo_rdm2x2_NNN_1n1. *)
Theorem C64_mps_antidiagonal {K : Type} (z o : K) (add mul : K -> K -> K) (cj : K -> K) : semi_ring_theory z o add mul eq ->
  forall D (st : ipeps (tensor K)) e As Cs Ts, sees st e As Cs Ts -> forall c m0 m1 m2 m3,
  fits D (patch_at cj As Cs Ts 2 2 [(0, 1); (1, 0)] (cadd c (0, -1)%Z) ++ mps_net 2 2 [(0, 1); (1, 0)] (drop_first m0) m1 m2 (drop_last m3)) -> size m0 0 = 1 -> last (tdims m3) 0 = 1 ->
  exists R I, eval_mpo_rdm2x2_NNN_1n1 z o add mul cj st e c [m0; m1; m2; m3] = Ok (R, I) /\
    is_contraction D z o add mul (patch_at cj As Cs Ts 2 2 [(0, 1); (1, 0)] (cadd c (0, -1)%Z) ++ mps_net 2 2 [(0, 1); (1, 0)] (drop_first m0) m1 m2 (drop_last m3)) [] R /\ is_contraction D z o add mul (patch_at cj As Cs Ts 2 2 [] (cadd c (0, -1)%Z)) [] I.
Proof. exact (eval_diag_ok z o add mul cj). Qed.
Print Assumptions C64_mps_antidiagonal.

Example C64_example : sees (st1 wA) (env1 wC wT) (fun _ => wA) (fun _ => pick dirs_C wC) (fun _ => pick dirs_T wT) /\
  (forall c, fits (wD 2 1) (patch_at gconj (fun _ => wA) (fun _ => pick dirs_C wC) (fun _ => pick dirs_T wT) 2 1 [(0, 0); (1, 0)] c ++
    mps_net 2 1 [(0, 0); (1, 0)] (drop_first (nth 0 wm (bt []))) (nth 1 wm (bt [])) (nth 2 wm (bt [])) (drop_last (nth 3 wm (bt []))))
  /\ fits (wD 2 2) (patch_at gconj (fun _ => wA) (fun _ => pick dirs_C wC) (fun _ => pick dirs_T wT) 2 2 (named_sites [3; 0]) c)) /\
  (exists R I, eval_mpo_rdm2x1 g0 g1 gadd gmul gconj (st1 wA) (env1 wC wT) (0, 0)%Z wm = Ok (R, I) /\ R <> I /\ tdata I <> [g0]) /\
  (exists M, rdm2x2_oe g0 g1 gadd gmul gconj (st1 wA) (env1 wC wT) (0, 0)%Z [3; 0] = Ok M /\ tdims M = [2; 2; 2; 2] /\ hd g0 (tdata M) <> g0) /\
  (exists M, mpo2x2 g0 g1 gadd gmul gconj (st1 wA) (env1 wC wT) (0, 0)%Z (repeat (ex_t 1 2 [1; 2; 1; 2]) 4) = Ok M /\ tdata M <> [g0]).
Proof. exact (Logic.conj w_sees (Logic.conj w_fits w_values)). Qed.
