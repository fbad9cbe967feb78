(** Reduced density matrices on 2x2 patches. *)
From Verif Require Import Base BaseLemmas Lattice Tensor TensorLemmas Net NetSpec NetProofs NetProofs2 NetProofs3 Corners CornersSpec CornersProofs Rdm RdmSpec RdmProofs.
From Coq Require Import Ring ArithRing Permutation.
Open Scope list_scope.
Open Scope nat_scope.
Open Scope res_scope.

Definition v_LU p := [F (V (lefb 2 2 1)) (vv 2 2 0 1); F (V (topb 2 2 1)) (hh 2 2 1 0)] ++ p.
Definition v_RU p := [F (V (topb 2 2 1)) (hh 2 2 1 0); F (V (rigb 2 2 1)) (vv 2 2 1 1)] ++ p.
Definition v_RD p := [F (V (rigb 2 2 1)) (vv 2 2 1 1); F (V (botb 2 2 1)) (hh 2 2 1 1)] ++ p.
Definition v_LDn p := [F (V (lefb 2 2 1)) (vv 2 2 0 1); F (V (botb 2 2 1)) (hh 2 2 1 1)] ++ p.
Definition pp i j := [V (pket 2 2 i j); V (pbra 2 2 i j)].
Ltac t_sln SR v := cbn [negb]; step ltac:(cdot SR); step ltac:(cdot SR); step cflat; step ltac:(cdot SR); step ltac:(cdot SR); step cperm; cviewe v.
Ltac t_dln SR i j v := step ltac:(t_open SR 2 2 i j); step ltac:(cdot SR); step ltac:(cdot SR); step ltac:(cdot SR); step cperm; cviewe v.

Section R.
Context {K : Type} (z o : K) (add mul : K -> K -> K) (cj : K -> K).
Hypothesis SR : semi_ring_theory z o add mul eq.
Variable D : nat -> nat.
Notation ten := (tensor K).
Notation isc := (is_contraction D z o add mul).
Variables (A : nat -> nat -> ten) (C1 C2 C3 C4 : ten) (Tu Tr Td Tl : nat -> ten).
Notation patch w h l := (patch_net w h l cj A C1 C2 C3 C4 Tu Tr Td Tl).
Notation tn := (tn2x2 cj C1 C2 C3 C4 (Tu 0) (Tl 0) (Tu 1) (Tr 0) (Tr 1) (Td 1) (Td 0) (Tl 1) (A 0 0) (A 1 0) (A 0 1) (A 1 1)).

Lemma four_sites : fits D (patch 2 2 [(0, 0); (1, 0); (0, 1); (1, 1)]) ->
  exists M, (t <- tn (fun k => 100 + k) ;; einsum z o add mul t [100; 102; 104; 106; 101; 103; 105; 107]) = Ok M
    /\ (lu <- lu_dl z o add mul cj C1 (Tu 0) (Tl 0) (A 0 0) ;; ru <- ru_dl z o add mul cj C2 (Tr 0) (Tu 1) (A 1 0) ;;
        rd <- rd_dl z o add mul cj C3 (Td 1) (Tr 1) (A 1 1) ;; ld <- ld_dl z o add mul cj C4 (Tl 1) (Td 0) (A 0 1) ;;
        rdm2x2_legacy_c z o add mul lu ru rd ld) = Ok M
    /\ isc (patch 2 2 [(0, 0); (1, 0); (0, 1); (1, 1)]) (patch_out 2 2 [(0, 0); (1, 0); (0, 1); (1, 1)]) M.
Proof. intros HF. start SR HF cj. bothE SR.
  - unfold tn2x2. views. cbn [Nat.add]. cein SR.
  - step ltac:(unfold lu_dl; t_dln SR 0 0 (v_LU (pp 0 0))). step ltac:(unfold ru_dl; t_dln SR 1 0 (v_RU (pp 1 0))).
    step ltac:(unfold rd_dl; t_dln SR 1 1 (v_RD (pp 1 1))). step ltac:(unfold ld_dl; t_dln SR 0 1 (v_LDn (pp 0 1))).
    unfold rdm2x2_legacy_c. step ltac:(cdot SR). step cperm. step ltac:(cdot SR). step cperm. step ltac:(cdot SR). cperm.
  - check. - check. - reflexivity. Qed.


Lemma nnn11 : fits D (patch 2 2 [(0, 0); (1, 1)]) ->
  exists M, (lu <- c2x2_LU_sl_c z o add mul cj C1 (Tu 0) (Tl 0) (A 0 0) true ;; ru <- c2x2_RU_sl_c z o add mul cj C2 (Tr 0) (Tu 1) (A 1 0) false ;;
        rd <- c2x2_RD_sl_c z o add mul cj C3 (Td 1) (Tr 1) (A 1 1) true ;; ld <- c2x2_LD_sl_c z o add mul cj C4 (Tl 1) (Td 0) (A 0 1) false ;;
        nnn11_c z o add mul lu ru rd ld) = Ok M
    /\ isc (patch 2 2 [(0, 0); (1, 1)]) (patch_out 2 2 [(0, 0); (1, 1)]) M.
Proof. intros HF. start SR HF cj. singleE SR.
  - step ltac:(unfold c2x2_LU_sl_c; t_sln SR (v_LU (pp 0 0))). step ltac:(unfold c2x2_RU_sl_c; t_sln SR (v_RU [])).
    step ltac:(unfold c2x2_RD_sl_c; t_sln SR (v_RD (pp 1 1))). step ltac:(unfold c2x2_LD_sl_c; t_sln SR (v_LDn [])).
    unfold nnn11_c. step ltac:(cdot SR). step cperm. step ltac:(cdot SR). step ltac:(cdot SR). cperm.
  - check. - reflexivity. Qed.
Lemma nnn1n1 : fits D (patch 2 2 [(0, 1); (1, 0)]) ->
  exists M, (t <- tn nnn_label ;; einsum z o add mul t [11; 22; 14; 25]) = Ok M
    /\ (lu <- c2x2_LU_sl_c z o add mul cj C1 (Tu 0) (Tl 0) (A 0 0) false ;; ru <- c2x2_RU_sl_c z o add mul cj C2 (Tr 0) (Tu 1) (A 1 0) true ;;
        rd <- c2x2_RD_sl_c z o add mul cj C3 (Td 1) (Tr 1) (A 1 1) false ;; ld <- c2x2_LD_sl_c z o add mul cj C4 (Tl 1) (Td 0) (A 0 1) true ;;
        nnn1n1_c z o add mul lu ru rd ld) = Ok M
    /\ isc (patch 2 2 [(0, 1); (1, 0)]) (patch_out 2 2 [(0, 1); (1, 0)]) M.
Proof. intros HF. start SR HF cj. bothE SR.
  - unfold tn2x2. views. cbn [nnn_label nth]. cein SR.
  - step ltac:(unfold c2x2_LU_sl_c; t_sln SR (v_LU [])). step ltac:(unfold c2x2_RU_sl_c; t_sln SR (v_RU (pp 1 0))).
    step ltac:(unfold c2x2_RD_sl_c; t_sln SR (v_RD [])). step ltac:(unfold c2x2_LD_sl_c; t_sln SR (v_LDn (pp 0 1))).
    unfold nnn1n1_c. step ltac:(cdot SR). step ltac:(cdot SR). step cperm. step ltac:(cdot SR). cperm.
  - check. - check. - reflexivity. Qed.
End R.
