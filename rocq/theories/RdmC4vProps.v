(** C70: reduced density matrices of the C4v symmetric state.  [patch cj w h l C T a]: w x h sites with the tensor
    a inside turned copies of C and T, the physical indices of the sites l open.  The matrices are those before
    _sym_pos_def_rdm (C37).  The symmetries used: C symmetric, a unchanged when turned; they hold for the states and
    environments of C43 (C70_symmetries). *)
From Coq Require Import Ring.
From Verif Require Import Base Tensor Net NetSpec Corners CornersExamples Rdm RdmSpec CtmC4vSpec RdmC4v RdmC4vSpec RdmC4vProofs RdmC4vProofs2 RdmC4vProofs3 RdmC4vExamples.
Open Scope list_scope.
Open Scope nat_scope.
Open Scope res_scope.

(** What the symmetries of C43 give. *)
Theorem C70_symmetries {K : Type} (z : K) (cj : K -> K) chi d D C T a : (forall x, cj (cj x) = x) ->
  c4v_site z cj d D a -> symmetric_env z cj chi D (C, T) -> diagonal z chi C ->
  shaped [chi; chi] C /\ shaped [chi; chi; D * D] T /\ shaped [d; D; D; D; D] a /\ symmetric z chi C /\ turn_invariant z d D a /\
  ((forall x, cj x = x) -> row_symmetric z chi (D * D) T /\ flip_invariant z d D a).
Proof. exact (all_symmetries z cj chi d D C T a). Qed.
Print Assumptions C70_symmetries.

(** rdm1x1: one site. *)
Theorem C70_1x1 {K : Type} (z o : K) (add mul : K -> K -> K) (cj : K -> K) : semi_ring_theory z o add mul eq ->
  forall chi d D C T a, shaped [chi; chi] C -> shaped [chi; chi; D * D] T -> shaped [d; D; D; D; D] a -> symmetric z chi C -> 
  exists M, rdm1x1 z o add mul cj C T a = Ok M /\ is_contraction (dims_patch 1 1 chi d D) z o add mul (patch cj 1 1 [(0, 0)] C T a) (patch_out 1 1 [(0, 0)]) M.
Proof. exact (rdm1x1_ok z o add mul cj). Qed.
Print Assumptions C70_1x1.

(** rdm1x1_sl.  Partial: only if T is symmetric, as it is over the real numbers; see C70_1x1_sl_refuted. *)
Theorem C70_1x1_sl_partial {K : Type} (z o : K) (add mul : K -> K -> K) (cj : K -> K) : semi_ring_theory z o add mul eq ->
  forall chi d D C T a, shaped [chi; chi] C -> shaped [chi; chi; D * D] T -> shaped [d; D; D; D; D] a -> symmetric z chi C -> row_symmetric z chi (D * D) T -> 
  exists M, rdm1x1_sl z o add mul cj C T a = Ok M /\ is_contraction (dims_patch 1 1 chi d D) z o add mul (patch cj 1 1 [(0, 0)] C T a) (patch_out 1 1 [(0, 0)]) M.
Proof. exact (rdm1x1_sl_ok z o add mul cj). Qed.
Print Assumptions C70_1x1_sl_partial.

(** rdm2x1 and rdm2x1_sl: two neighbours in a row. *)
Theorem C70_2x1 {K : Type} (z o : K) (add mul : K -> K -> K) (cj : K -> K) : semi_ring_theory z o add mul eq ->
  forall chi d D C T a, shaped [chi; chi] C -> shaped [chi; chi; D * D] T -> shaped [d; D; D; D; D] a -> symmetric z chi C -> turn_invariant z d D a -> 
  exists M, rdm2x1 z o add mul cj C T a = Ok M /\ is_contraction (dims_patch 2 1 chi d D) z o add mul (patch cj 2 1 [(0, 0); (1, 0)] C T a) (patch_out 2 1 [(0, 0); (1, 0)]) M.
Proof. exact (rdm2x1_ok z o add mul cj). Qed.
Print Assumptions C70_2x1.

Theorem C70_2x1_sl {K : Type} (z o : K) (add mul : K -> K -> K) (cj : K -> K) : semi_ring_theory z o add mul eq ->
  forall chi d D C T a, shaped [chi; chi] C -> shaped [chi; chi; D * D] T -> shaped [d; D; D; D; D] a -> symmetric z chi C -> turn_invariant z d D a -> 
  exists M, rdm2x1_sl z o add mul cj C T a = Ok M /\ is_contraction (dims_patch 2 1 chi d D) z o add mul (patch cj 2 1 [(0, 0); (1, 0)] C T a) (patch_out 2 1 [(0, 0); (1, 0)]) M.
Proof. exact (rdm2x1_sl_ok z o add mul cj). Qed.
Print Assumptions C70_2x1_sl.

(** rdm3x1 and rdm3x1_sl: the ends of a row of three. *)
Theorem C70_3x1 {K : Type} (z o : K) (add mul : K -> K -> K) (cj : K -> K) : semi_ring_theory z o add mul eq ->
  forall chi d D C T a, shaped [chi; chi] C -> shaped [chi; chi; D * D] T -> shaped [d; D; D; D; D] a -> symmetric z chi C -> turn_invariant z d D a -> 
  exists M, rdm3x1 z o add mul cj C T a = Ok M /\ is_contraction (dims_patch 3 1 chi d D) z o add mul (patch cj 3 1 [(0, 0); (2, 0)] C T a) (patch_out 3 1 [(0, 0); (2, 0)]) M.
Proof. exact (rdm3x1_ok z o add mul cj). Qed.
Print Assumptions C70_3x1.

Theorem C70_3x1_sl {K : Type} (z o : K) (add mul : K -> K -> K) (cj : K -> K) : semi_ring_theory z o add mul eq ->
  forall chi d D C T a, shaped [chi; chi] C -> shaped [chi; chi; D * D] T -> shaped [d; D; D; D; D] a -> symmetric z chi C -> turn_invariant z d D a -> 
  exists M, rdm3x1_sl z o add mul cj C T a = Ok M /\ is_contraction (dims_patch 3 1 chi d D) z o add mul (patch cj 3 1 [(0, 0); (2, 0)] C T a) (patch_out 3 1 [(0, 0); (2, 0)]) M.
Proof. exact (rdm3x1_sl_ok z o add mul cj). Qed.
Print Assumptions C70_3x1_sl.

(** rdm2x2_NN_lowmem and rdm2x2_NN_lowmem_sl: two neighbours of a plaquette. *)
Theorem C70_2x2_NN {K : Type} (z o : K) (add mul : K -> K -> K) (cj : K -> K) : semi_ring_theory z o add mul eq ->
  forall chi d D C T a, shaped [chi; chi] C -> shaped [chi; chi; D * D] T -> shaped [d; D; D; D; D] a -> turn_invariant z d D a -> 
  exists M, rdm2x2_NN z o add mul (open_dl z o add mul cj) C T a = Ok M /\ is_contraction (dims_patch 2 2 chi d D) z o add mul (patch cj 2 2 [(0, 0); (0, 1)] C T a) (patch_out 2 2 [(0, 0); (0, 1)]) M.
Proof. exact (rdm2x2_NN_dl_ok z o add mul cj). Qed.
Print Assumptions C70_2x2_NN.

Theorem C70_2x2_NN_sl {K : Type} (z o : K) (add mul : K -> K -> K) (cj : K -> K) : semi_ring_theory z o add mul eq ->
  forall chi d D C T a, shaped [chi; chi] C -> shaped [chi; chi; D * D] T -> shaped [d; D; D; D; D] a -> turn_invariant z d D a -> 
  exists M, rdm2x2_NN z o add mul (open_sl z o add mul cj) C T a = Ok M /\ is_contraction (dims_patch 2 2 chi d D) z o add mul (patch cj 2 2 [(0, 0); (0, 1)] C T a) (patch_out 2 2 [(0, 0); (0, 1)]) M.
Proof. exact (rdm2x2_NN_sl_ok z o add mul cj). Qed.
Print Assumptions C70_2x2_NN_sl.

(** rdm2x2_NNN_lowmem and rdm2x2_NNN_lowmem_sl: the diagonal of a plaquette. *)
Theorem C70_2x2_NNN {K : Type} (z o : K) (add mul : K -> K -> K) (cj : K -> K) : semi_ring_theory z o add mul eq ->
  forall chi d D C T a, shaped [chi; chi] C -> shaped [chi; chi; D * D] T -> shaped [d; D; D; D; D] a -> turn_invariant z d D a -> 
  exists M, rdm2x2_NNN z o add mul (open_dl z o add mul cj) C T a = Ok M /\ is_contraction (dims_patch 2 2 chi d D) z o add mul (patch cj 2 2 [(0, 0); (1, 1)] C T a) (patch_out 2 2 [(0, 0); (1, 1)]) M.
Proof. exact (rdm2x2_NNN_dl_ok z o add mul cj). Qed.
Print Assumptions C70_2x2_NNN.

Theorem C70_2x2_NNN_sl {K : Type} (z o : K) (add mul : K -> K -> K) (cj : K -> K) : semi_ring_theory z o add mul eq ->
  forall chi d D C T a, shaped [chi; chi] C -> shaped [chi; chi; D * D] T -> shaped [d; D; D; D; D] a -> turn_invariant z d D a -> 
  exists M, rdm2x2_NNN z o add mul (open_sl z o add mul cj) C T a = Ok M /\ is_contraction (dims_patch 2 2 chi d D) z o add mul (patch cj 2 2 [(0, 0); (1, 1)] C T a) (patch_out 2 2 [(0, 0); (1, 1)]) M.
Proof. exact (rdm2x2_NNN_sl_ok z o add mul cj). Qed.
Print Assumptions C70_2x2_NNN_sl.

(** rdm2x2: the plaquette. *)
Theorem C70_2x2 {K : Type} (z o : K) (add mul : K -> K -> K) (cj : K -> K) : semi_ring_theory z o add mul eq ->
  forall chi d D C T a, shaped [chi; chi] C -> shaped [chi; chi; D * D] T -> shaped [d; D; D; D; D] a -> turn_invariant z d D a -> 
  exists M, rdm2x2 z o add mul cj C T a = Ok M /\ is_contraction (dims_patch 2 2 chi d D) z o add mul (patch cj 2 2 [(0, 0); (1, 0); (0, 1); (1, 1)] C T a) (patch_out 2 2 [(0, 0); (1, 0); (0, 1); (1, 1)]) M.
Proof. exact (rdm2x2_ok z o add mul cj). Qed.
Print Assumptions C70_2x2.

(** rdm3x2_NNNN: the ends of the upper row of a 3 x 2 patch.  Partial: only if a is also unchanged when reflected
    top to bottom, as it is over the real numbers ... *)
Theorem C70_3x2_partial {K : Type} (z o : K) (add mul : K -> K -> K) (cj : K -> K) : semi_ring_theory z o add mul eq ->
  forall chi d D C T a, shaped [chi; chi] C -> shaped [chi; chi; D * D] T -> shaped [d; D; D; D; D] a -> turn_invariant z d D a -> flip_invariant z d D a -> 
  exists M, rdm3x2_NNNN z o add mul cj C T a = Ok M /\ is_contraction (dims_patch 3 2 chi d D) z o add mul (patch cj 3 2 [(2, 0); (0, 0)] C T a) (patch_out 3 2 [(2, 0); (0, 0)]) M.
Proof. exact (rdm3x2_ok z o add mul cj). Qed.
Print Assumptions C70_3x2_partial.

(** ... in general the site in the middle of the lower row enters reflected. *)
Theorem C70_3x2_reflected {K : Type} (z o : K) (add mul : K -> K -> K) (cj : K -> K) : semi_ring_theory z o add mul eq ->
  forall chi d D C T a, shaped [chi; chi] C -> shaped [chi; chi; D * D] T -> shaped [d; D; D; D; D] a -> turn_invariant z d D a -> 
  exists M, rdm3x2_NNNN z o add mul cj C T a = Ok M /\ is_contraction (dims_patch 3 2 chi d D) z o add mul (patch_reflecting cj 3 2 [(1, 1)] [(2, 0); (0, 0)] C T a) (patch_out 3 2 [(2, 0); (0, 0)]) M.
Proof. exact (rdm3x2_reflected_ok z o add mul cj). Qed.
Print Assumptions C70_3x2_reflected.

(** ddA_rdm1x1: the ket of the site removed. *)
Theorem C70_derivative {K : Type} (z o : K) (add mul : K -> K -> K) (cj : K -> K) : semi_ring_theory z o add mul eq ->
  forall chi d D C T a, shaped [chi; chi] C -> shaped [chi; chi; D * D] T -> shaped [d; D; D; D; D] a -> symmetric z chi C -> 
  exists M, ddA_rdm1x1 z o add mul cj C T a = Ok M /\ is_contraction (dims_patch 1 1 chi d D) z o add mul (bra_only cj 1 1 0 0 C T a) (bra_only_out 1 1 0 0) M.
Proof. exact (ddA_ok z o add mul cj). Qed.
Print Assumptions C70_derivative.

(** aux_rdm1x1: the site removed; bonds up, left, down, right. *)
Theorem C70_aux_1x1 {K : Type} (z o : K) (add mul : K -> K -> K) : semi_ring_theory z o add mul eq ->
  forall chi d D C T a, shaped [chi; chi] C -> shaped [chi; chi; D * D] T -> shaped [d; D; D; D; D] a -> symmetric z chi C -> 
  exists M, aux_rdm1x1 z o add mul C T a = Ok M /\ is_contraction (dims_patch 1 1 chi d D) z o add mul (frame 1 1 C T) (bonds_out 1 1 [(true, 0, 0); (false, 0, 0); (true, 0, 1); (false, 1, 0)]) M.
Proof. exact (aux1_ok z o add mul). Qed.
Print Assumptions C70_aux_1x1.

(** aux_rdm2x2_NN: two sites of a plaquette removed.  Partial: not in the order that is drawn. *)
Theorem C70_aux_2x2_NN_partial {K : Type} (z o : K) (add mul : K -> K -> K) (cj : K -> K) : semi_ring_theory z o add mul eq ->
  forall chi d D C T a, shaped [chi; chi] C -> shaped [chi; chi; D * D] T -> shaped [d; D; D; D; D] a -> turn_invariant z d D a -> 
  exists M, aux_rdm2x2_NN z o add mul cj C T a = Ok M /\ is_contraction (dims_patch 2 2 chi d D) z o add mul (patch_of cj 2 2 [(0, 1); (1, 1)] [] C T a) 
    (bonds_out 2 2 [(true, 0, 0); (false, 0, 0); (true, 0, 1); (true, 1, 0); (true, 1, 1); (false, 2, 0)]) M.
Proof. exact (aux_NN_ok z o add mul cj). Qed.
Print Assumptions C70_aux_2x2_NN_partial.

(** aux_rdm2x2: the plaquette removed.  Partial: not in the order that is drawn. *)
Theorem C70_aux_2x2_partial {K : Type} (z o : K) (add mul : K -> K -> K) : semi_ring_theory z o add mul eq ->
  forall chi d D C T a, shaped [chi; chi] C -> shaped [chi; chi; D * D] T -> shaped [d; D; D; D; D] a -> 
  exists M, aux_rdm2x2 z o add mul C T a = Ok M /\ is_contraction (dims_patch 2 2 chi d D) z o add mul (frame 2 2 C T) 
    (bonds_out 2 2 [(true, 0, 0); (false, 0, 0); (true, 1, 0); (false, 2, 0); (true, 0, 2); (false, 0, 1); (true, 1, 2); (false, 2, 1)]) M.
Proof. exact (aux2_ok z o add mul). Qed.
Print Assumptions C70_aux_2x2_partial.

(** rdm1x1_sl contracts the upper T upside down: for a complex environment its diagonal is 81 : 144, that of the
    network is 81 : 288. *)
Theorem C70_1x1_sl_refuted : exists C T a M M', c4v_site g0 gconj 2 2 a /\ symmetric_env g0 gconj 2 2 (C, T) /\ diagonal g0 2 C /\
  is_contraction (dims_patch 1 1 2 2 2) g0 g1 gadd gmul (patch gconj 1 1 [(0, 0)] C T a) (patch_out 1 1 [(0, 0)]) M /\
  rdm1x1_sl g0 g1 gadd gmul gconj C T a = Ok M' /\
  gmul (entry g0 M [0; 0]) (entry g0 M' [1; 1]) <> gmul (entry g0 M [1; 1]) (entry g0 M' [0; 0]).
Proof. exact rdm1x1_sl_wrong. Qed.
Print Assumptions C70_1x1_sl_refuted.

(** The bonds do not come in the order drawn in the documentation, anticlockwise from the upper left. *)
Theorem C70_aux_2x2_refuted : exists (C T a M : tensor Z), c4v_site 0%Z idZ 1 2 a /\ symmetric_env 0%Z idZ 2 2 (C, T) /\ diagonal 0%Z 2 C /\
  aux_rdm2x2 0%Z 1%Z Z.add Z.mul C T a = Ok M /\
  ~ is_contraction (dims_patch 2 2 2 1 2) 0%Z 1%Z Z.add Z.mul (frame 2 2 C T)
      (bonds_out 2 2 [(true, 0, 0); (false, 0, 0); (false, 0, 1); (true, 0, 2); (true, 1, 2); (false, 2, 1); (false, 2, 0); (true, 1, 0)]) M.
Proof. exact aux_order_ex. Qed.
Print Assumptions C70_aux_2x2_refuted.
Theorem C70_aux_2x2_NN_refuted : exists (C T a M : tensor Z), c4v_site 0%Z idZ 1 2 a /\ symmetric_env 0%Z idZ 1 2 (C, T) /\ diagonal 0%Z 1 C /\
  aux_rdm2x2_NN 0%Z 1%Z Z.add Z.mul idZ C T a = Ok M /\
  ~ is_contraction (dims_patch 2 2 1 1 2) 0%Z 1%Z Z.add Z.mul (patch_of idZ 2 2 [(0, 1); (1, 1)] [] C T a)
      (bonds_out 2 2 [(true, 0, 0); (false, 0, 0); (true, 0, 1); (true, 1, 1); (false, 2, 0); (true, 1, 0)]) M.
Proof. exact aux_NN_order_ex. Qed.
Print Assumptions C70_aux_2x2_NN_refuted.

(** ** a case *)
Example C70_case : c4v_site g0 gconj 2 2 xa /\ symmetric_env g0 gconj 2 2 (xC, xT) /\ diagonal g0 2 xC /\
  rdm1x1 g0 g1 gadd gmul gconj xC xT xa = Ok (mkT [2; 2] [g_ 81; g_ 0; g_ 0; g_ 288]).
Proof. exact x_case. Qed.
