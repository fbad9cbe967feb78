(** Halves: single and double layer contract the documented network. *)
From Verif Require Import Base BaseLemmas Tensor TensorLemmas Net NetSpec NetProofs NetProofs2 NetProofs3 Corners CornersSpec CornersProofs.
From Coq Require Import Ring ArithRing Permutation.
Open Scope list_scope.
Open Scope nat_scope.
Open Scope res_scope.

Section C.
Context {K : Type} (z o : K) (add mul : K -> K -> K) (cj : K -> K).
Hypothesis SR : semi_ring_theory z o add mul eq.
Variable D : nat -> nat.
Notation ten := (tensor K).
Notation isc := (is_contraction D z o add mul).
Notation dlayer := (double_layer z o add mul cj).
Ltac leaves HF := leaf SR HF 0; leaf SR HF 1; leaf SR HF 2; leaf SR HF 3; leaf SR HF 4; leaf SR HF 5; leaf SR HF 6; leaf SR HF 7; leaf SR HF 8; leaf SR HF 9.
Notation layer := (layer z o add mul cj).

Lemma half_RU_RD k1 k2 : fits D (half_net cj net_RU net_RD true false k1 k2) ->
  exists M, (a <- c_RU z o add mul cj true k1 ;; b <- c_RD z o add mul cj true k2 ;; tensordot z o add mul a b [1] [0]) = Ok M
    /\ (k1' <- layer k1 ;; k2' <- layer k2 ;; a <- c_RU z o add mul cj false k1' ;; b <- c_RD z o add mul cj false k2' ;; tensordot z o add mul a b [1] [0]) = Ok M
    /\ isc (half_net cj net_RU net_RD true false k1 k2) (half_out true false) M.
Proof. destruct k1 as [C1 T11 T12 A1], k2 as [C2 T21 T22 A2]. intros HF. leaves HF. conj_eqs HF cj A1 3 4. conj_eqs HF cj A2 8 9. both SR.
  - unfold c_RU, c_RD, on_corner. cbn [k_C k_T1 k_T2 k_A].
    step ltac:(unfold c2x2_RU_sl_c; t_sl SR idb v_std). step ltac:(unfold c2x2_RD_sl_c; t_sl SR (glue true false) v_std). cdot SR.
  - unfold Corners.layer. cbn [k_C k_T1 k_T2 k_A].
    apply bind_layer. step ltac:(t_layer SR idb d_RU). apply bind_layer. step ltac:(t_layer SR (glue true false) d_RD).
    unfold c_RU, c_RD, on_corner. cbn [k_C k_T1 k_T2 k_A].
    step ltac:(unfold c2x2_RU_c; t_dl SR idb). step ltac:(unfold c2x2_RD_c; t_dl SR (glue true false)). cdot SR.
  - check. - check. - reflexivity. Qed.
Lemma half_LU_LD k1 k2 : fits D (half_net cj net_LU net_LD false false k1 k2) ->
  exists M, (a <- c_LU z o add mul cj true k1 ;; b <- c_LD z o add mul cj true k2 ;; tensordot z o add mul a b [0] [0]) = Ok M
    /\ (k1' <- layer k1 ;; k2' <- layer k2 ;; a <- c_LU z o add mul cj false k1' ;; b <- c_LD z o add mul cj false k2' ;; tensordot z o add mul a b [0] [0]) = Ok M
    /\ isc (half_net cj net_LU net_LD false false k1 k2) (half_out false false) M.
Proof. destruct k1 as [C1 T11 T12 A1], k2 as [C2 T21 T22 A2]. intros HF. leaves HF. conj_eqs HF cj A1 3 4. conj_eqs HF cj A2 8 9. both SR.
  - unfold c_LU, c_LD, on_corner. cbn [k_C k_T1 k_T2 k_A].
    step ltac:(unfold c2x2_LU_sl_c; t_sl SR idb v_std). step ltac:(unfold c2x2_LD_sl_c; t_sl SR (glue false false) v_LD). cdot SR.
  - unfold Corners.layer. cbn [k_C k_T1 k_T2 k_A].
    apply bind_layer. step ltac:(t_layer SR idb d_LU). apply bind_layer. step ltac:(t_layer SR (glue false false) d_LD).
    unfold c_LU, c_LD, on_corner. cbn [k_C k_T1 k_T2 k_A].
    step ltac:(unfold c2x2_LU_c; t_dl SR idb). step ltac:(unfold c2x2_LD_c; t_dl SR (glue false false)). cdot SR.
  - check. - check. - reflexivity. Qed.
Lemma half_LU_RU k1 k2 : fits D (half_net cj net_LU net_RU true false k1 k2) ->
  exists M, (a <- c_LU z o add mul cj true k1 ;; b <- c_RU z o add mul cj true k2 ;; tensordot z o add mul a b [1] [0]) = Ok M
    /\ (k1' <- layer k1 ;; k2' <- layer k2 ;; a <- c_LU z o add mul cj false k1' ;; b <- c_RU z o add mul cj false k2' ;; tensordot z o add mul a b [1] [0]) = Ok M
    /\ isc (half_net cj net_LU net_RU true false k1 k2) (half_out true false) M.
Proof. destruct k1 as [C1 T11 T12 A1], k2 as [C2 T21 T22 A2]. intros HF. leaves HF. conj_eqs HF cj A1 3 4. conj_eqs HF cj A2 8 9. both SR.
  - unfold c_LU, c_RU, on_corner. cbn [k_C k_T1 k_T2 k_A].
    step ltac:(unfold c2x2_LU_sl_c; t_sl SR idb v_std). step ltac:(unfold c2x2_RU_sl_c; t_sl SR (glue true false) v_std). cdot SR.
  - unfold Corners.layer. cbn [k_C k_T1 k_T2 k_A].
    apply bind_layer. step ltac:(t_layer SR idb d_LU). apply bind_layer. step ltac:(t_layer SR (glue true false) d_RU).
    unfold c_LU, c_RU, on_corner. cbn [k_C k_T1 k_T2 k_A].
    step ltac:(unfold c2x2_LU_c; t_dl SR idb). step ltac:(unfold c2x2_RU_c; t_dl SR (glue true false)). cdot SR.
  - check. - check. - reflexivity. Qed.
Lemma half_LD_RD k1 k2 : fits D (half_net cj net_LD net_RD true true k1 k2) ->
  exists M, (a <- c_LD z o add mul cj true k1 ;; b <- c_RD z o add mul cj true k2 ;; tensordot z o add mul a b [1] [1]) = Ok M
    /\ (k1' <- layer k1 ;; k2' <- layer k2 ;; a <- c_LD z o add mul cj false k1' ;; b <- c_RD z o add mul cj false k2' ;; tensordot z o add mul a b [1] [1]) = Ok M
    /\ isc (half_net cj net_LD net_RD true true k1 k2) (half_out true true) M.
Proof. destruct k1 as [C1 T11 T12 A1], k2 as [C2 T21 T22 A2]. intros HF. leaves HF. conj_eqs HF cj A1 3 4. conj_eqs HF cj A2 8 9. both SR.
  - unfold c_LD, c_RD, on_corner. cbn [k_C k_T1 k_T2 k_A].
    step ltac:(unfold c2x2_LD_sl_c; t_sl SR idb v_LD). step ltac:(unfold c2x2_RD_sl_c; t_sl SR (glue true true) v_std). cdot SR.
  - unfold Corners.layer. cbn [k_C k_T1 k_T2 k_A].
    apply bind_layer. step ltac:(t_layer SR idb d_LD). apply bind_layer. step ltac:(t_layer SR (glue true true) d_RD).
    unfold c_LD, c_RD, on_corner. cbn [k_C k_T1 k_T2 k_A].
    step ltac:(unfold c2x2_LD_c; t_dl SR idb). step ltac:(unfold c2x2_RD_c; t_dl SR (glue true true)). cdot SR.
  - check. - check. - reflexivity. Qed.
Lemma half_LD_LU k1 k2 : fits D (half_net cj net_LD net_LU false false k1 k2) ->
  exists M, (a <- c_LD z o add mul cj true k1 ;; b <- c_LU z o add mul cj true k2 ;; tensordot z o add mul a b [0] [0]) = Ok M
    /\ (k1' <- layer k1 ;; k2' <- layer k2 ;; a <- c_LD z o add mul cj false k1' ;; b <- c_LU z o add mul cj false k2' ;; tensordot z o add mul a b [0] [0]) = Ok M
    /\ isc (half_net cj net_LD net_LU false false k1 k2) (half_out false false) M.
Proof. destruct k1 as [C1 T11 T12 A1], k2 as [C2 T21 T22 A2]. intros HF. leaves HF. conj_eqs HF cj A1 3 4. conj_eqs HF cj A2 8 9. both SR.
  - unfold c_LD, c_LU, on_corner. cbn [k_C k_T1 k_T2 k_A].
    step ltac:(unfold c2x2_LD_sl_c; t_sl SR idb v_LD). step ltac:(unfold c2x2_LU_sl_c; t_sl SR (glue false false) v_std). cdot SR.
  - unfold Corners.layer. cbn [k_C k_T1 k_T2 k_A].
    apply bind_layer. step ltac:(t_layer SR idb d_LD). apply bind_layer. step ltac:(t_layer SR (glue false false) d_LU).
    unfold c_LD, c_LU, on_corner. cbn [k_C k_T1 k_T2 k_A].
    step ltac:(unfold c2x2_LD_c; t_dl SR idb). step ltac:(unfold c2x2_LU_c; t_dl SR (glue false false)). cdot SR.
  - check. - check. - reflexivity. Qed.
Lemma half_RD_RU k1 k2 : fits D (half_net cj net_RD net_RU false true k1 k2) ->
  exists M, (a <- c_RD z o add mul cj true k1 ;; b <- c_RU z o add mul cj true k2 ;; tensordot z o add mul a b [0] [1]) = Ok M
    /\ (k1' <- layer k1 ;; k2' <- layer k2 ;; a <- c_RD z o add mul cj false k1' ;; b <- c_RU z o add mul cj false k2' ;; tensordot z o add mul a b [0] [1]) = Ok M
    /\ isc (half_net cj net_RD net_RU false true k1 k2) (half_out false true) M.
Proof. destruct k1 as [C1 T11 T12 A1], k2 as [C2 T21 T22 A2]. intros HF. leaves HF. conj_eqs HF cj A1 3 4. conj_eqs HF cj A2 8 9. both SR.
  - unfold c_RD, c_RU, on_corner. cbn [k_C k_T1 k_T2 k_A].
    step ltac:(unfold c2x2_RD_sl_c; t_sl SR idb v_std). step ltac:(unfold c2x2_RU_sl_c; t_sl SR (glue false true) v_std). cdot SR.
  - unfold Corners.layer. cbn [k_C k_T1 k_T2 k_A].
    apply bind_layer. step ltac:(t_layer SR idb d_RD). apply bind_layer. step ltac:(t_layer SR (glue false true) d_RU).
    unfold c_RD, c_RU, on_corner. cbn [k_C k_T1 k_T2 k_A].
    step ltac:(unfold c2x2_RD_c; t_dl SR idb). step ltac:(unfold c2x2_RU_c; t_dl SR (glue false true)). cdot SR.
  - check. - check. - reflexivity. Qed.
Lemma half_RD_LD k1 k2 : fits D (half_net cj net_RD net_LD true true k1 k2) ->
  exists M, (a <- c_RD z o add mul cj true k1 ;; b <- c_LD z o add mul cj true k2 ;; tensordot z o add mul a b [1] [1]) = Ok M
    /\ (k1' <- layer k1 ;; k2' <- layer k2 ;; a <- c_RD z o add mul cj false k1' ;; b <- c_LD z o add mul cj false k2' ;; tensordot z o add mul a b [1] [1]) = Ok M
    /\ isc (half_net cj net_RD net_LD true true k1 k2) (half_out true true) M.
Proof. destruct k1 as [C1 T11 T12 A1], k2 as [C2 T21 T22 A2]. intros HF. leaves HF. conj_eqs HF cj A1 3 4. conj_eqs HF cj A2 8 9. both SR.
  - unfold c_RD, c_LD, on_corner. cbn [k_C k_T1 k_T2 k_A].
    step ltac:(unfold c2x2_RD_sl_c; t_sl SR idb v_std). step ltac:(unfold c2x2_LD_sl_c; t_sl SR (glue true true) v_LD). cdot SR.
  - unfold Corners.layer. cbn [k_C k_T1 k_T2 k_A].
    apply bind_layer. step ltac:(t_layer SR idb d_RD). apply bind_layer. step ltac:(t_layer SR (glue true true) d_LD).
    unfold c_RD, c_LD, on_corner. cbn [k_C k_T1 k_T2 k_A].
    step ltac:(unfold c2x2_RD_c; t_dl SR idb). step ltac:(unfold c2x2_LD_c; t_dl SR (glue true true)). cdot SR.
  - check. - check. - reflexivity. Qed.
Lemma half_RU_LU k1 k2 : fits D (half_net cj net_RU net_LU false true k1 k2) ->
  exists M, (a <- c_RU z o add mul cj true k1 ;; b <- c_LU z o add mul cj true k2 ;; tensordot z o add mul a b [0] [1]) = Ok M
    /\ (k1' <- layer k1 ;; k2' <- layer k2 ;; a <- c_RU z o add mul cj false k1' ;; b <- c_LU z o add mul cj false k2' ;; tensordot z o add mul a b [0] [1]) = Ok M
    /\ isc (half_net cj net_RU net_LU false true k1 k2) (half_out false true) M.
Proof. destruct k1 as [C1 T11 T12 A1], k2 as [C2 T21 T22 A2]. intros HF. leaves HF. conj_eqs HF cj A1 3 4. conj_eqs HF cj A2 8 9. both SR.
  - unfold c_RU, c_LU, on_corner. cbn [k_C k_T1 k_T2 k_A].
    step ltac:(unfold c2x2_RU_sl_c; t_sl SR idb v_std). step ltac:(unfold c2x2_LU_sl_c; t_sl SR (glue false true) v_std). cdot SR.
  - unfold Corners.layer. cbn [k_C k_T1 k_T2 k_A].
    apply bind_layer. step ltac:(t_layer SR idb d_RU). apply bind_layer. step ltac:(t_layer SR (glue false true) d_LU).
    unfold c_RU, c_LU, on_corner. cbn [k_C k_T1 k_T2 k_A].
    step ltac:(unfold c2x2_RU_c; t_dl SR idb). step ltac:(unfold c2x2_LU_c; t_dl SR (glue false true)). cdot SR.
  - check. - check. - reflexivity. Qed.
End C.
