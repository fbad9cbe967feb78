(** C36, C65: corners, halves and absorbed tensors of the directional CTMRG are the networks drawn in the
    documentation, and the same from the on-site tensor ("sl") as from the double-layer tensor ("dl").
    [fits D net]: the dimensions of the tensors are those of the bonds. *)
From Coq Require Import Ring.
From Verif Require Import Base Tensor Net NetSpec Corners CornersSpec CornersProofs2 CornersProofs3 CornersProofs4 CornersProofs5 CornersExamples.
Open Scope list_scope.
Open Scope nat_scope.
Open Scope res_scope.

Theorem C36_corner_LU {K : Type} (z o : K) (add mul : K -> K -> K) (cj : K -> K) :
  semi_ring_theory z o add mul eq -> forall D C T1 T2 A, fits D (net_LU idb 8 C T1 T2 A (tmap cj A)) ->
  exists M, c2x2_LU_sl_c z o add mul cj C T1 T2 A false = Ok M
    /\ (a <- double_layer z o add mul cj A ;; c2x2_LU_c z o add mul C T1 T2 a false) = Ok M
    /\ is_contraction D z o add mul (net_LU idb 8 C T1 T2 A (tmap cj A)) [out0 idb; out1 idb] M.
Proof. exact (LU_closed z o add mul cj). Qed.
Print Assumptions C36_corner_LU.
(** with the physical indices open; [a] is the double-layer tensor with open indices *)
Theorem C36_corner_LU_open {K : Type} (z o : K) (add mul : K -> K -> K) (cj : K -> K) :
  semi_ring_theory z o add mul eq -> forall D C T1 T2 A a, fits D (net_LU idb 13 C T1 T2 A (tmap cj A)) ->
  is_contraction D z o add mul [(A, snd (nth 3 (net_LU idb 13 C T1 T2 A (tmap cj A)) (A, []))); (tmap cj A, snd (nth 4 (net_LU idb 13 C T1 T2 A (tmap cj A)) (A, [])))] [V 8; V 13; FF 2 3; FF 6 7; FF 9 11; FF 10 12] a ->
  exists M, c2x2_LU_sl_c z o add mul cj C T1 T2 A true = Ok M /\ c2x2_LU_c z o add mul C T1 T2 a true = Ok M
    /\ is_contraction D z o add mul (net_LU idb 13 C T1 T2 A (tmap cj A)) [out0 idb; out1 idb; V 8; V 13] M.
Proof. exact (LU_open z o add mul cj). Qed.
Print Assumptions C36_corner_LU_open.

Theorem C36_corner_RU {K : Type} (z o : K) (add mul : K -> K -> K) (cj : K -> K) :
  semi_ring_theory z o add mul eq -> forall D C T1 T2 A, fits D (net_RU idb 8 C T1 T2 A (tmap cj A)) ->
  exists M, c2x2_RU_sl_c z o add mul cj C T1 T2 A false = Ok M
    /\ (a <- double_layer z o add mul cj A ;; c2x2_RU_c z o add mul C T1 T2 a false) = Ok M
    /\ is_contraction D z o add mul (net_RU idb 8 C T1 T2 A (tmap cj A)) [out0 idb; out1 idb] M.
Proof. exact (RU_closed z o add mul cj). Qed.
Print Assumptions C36_corner_RU.
(** with the physical indices open; [a] is the double-layer tensor with open indices *)
Theorem C36_corner_RU_open {K : Type} (z o : K) (add mul : K -> K -> K) (cj : K -> K) :
  semi_ring_theory z o add mul eq -> forall D C T1 T2 A a, fits D (net_RU idb 13 C T1 T2 A (tmap cj A)) ->
  is_contraction D z o add mul [(A, snd (nth 3 (net_RU idb 13 C T1 T2 A (tmap cj A)) (A, []))); (tmap cj A, snd (nth 4 (net_RU idb 13 C T1 T2 A (tmap cj A)) (A, [])))] [V 8; V 13; FF 6 7; FF 9 11; FF 10 12; FF 2 3] a ->
  exists M, c2x2_RU_sl_c z o add mul cj C T1 T2 A true = Ok M /\ c2x2_RU_c z o add mul C T1 T2 a true = Ok M
    /\ is_contraction D z o add mul (net_RU idb 13 C T1 T2 A (tmap cj A)) [out0 idb; out1 idb; V 8; V 13] M.
Proof. exact (RU_open z o add mul cj). Qed.
Print Assumptions C36_corner_RU_open.

Theorem C36_corner_RD {K : Type} (z o : K) (add mul : K -> K -> K) (cj : K -> K) :
  semi_ring_theory z o add mul eq -> forall D C T1 T2 A, fits D (net_RD idb 8 C T1 T2 A (tmap cj A)) ->
  exists M, c2x2_RD_sl_c z o add mul cj C T1 T2 A false = Ok M
    /\ (a <- double_layer z o add mul cj A ;; c2x2_RD_c z o add mul C T1 T2 a false) = Ok M
    /\ is_contraction D z o add mul (net_RD idb 8 C T1 T2 A (tmap cj A)) [out0 idb; out1 idb] M.
Proof. exact (RD_closed z o add mul cj). Qed.
Print Assumptions C36_corner_RD.
(** with the physical indices open; [a] is the double-layer tensor with open indices *)
Theorem C36_corner_RD_open {K : Type} (z o : K) (add mul : K -> K -> K) (cj : K -> K) :
  semi_ring_theory z o add mul eq -> forall D C T1 T2 A a, fits D (net_RD idb 13 C T1 T2 A (tmap cj A)) ->
  is_contraction D z o add mul [(A, snd (nth 3 (net_RD idb 13 C T1 T2 A (tmap cj A)) (A, []))); (tmap cj A, snd (nth 4 (net_RD idb 13 C T1 T2 A (tmap cj A)) (A, [])))] [V 8; V 13; FF 9 11; FF 10 12; FF 2 3; FF 6 7] a ->
  exists M, c2x2_RD_sl_c z o add mul cj C T1 T2 A true = Ok M /\ c2x2_RD_c z o add mul C T1 T2 a true = Ok M
    /\ is_contraction D z o add mul (net_RD idb 13 C T1 T2 A (tmap cj A)) [out0 idb; out1 idb; V 8; V 13] M.
Proof. exact (RD_open z o add mul cj). Qed.
Print Assumptions C36_corner_RD_open.

Theorem C36_corner_LD {K : Type} (z o : K) (add mul : K -> K -> K) (cj : K -> K) :
  semi_ring_theory z o add mul eq -> forall D C T1 T2 A, fits D (net_LD idb 8 C T1 T2 A (tmap cj A)) ->
  exists M, c2x2_LD_sl_c z o add mul cj C T1 T2 A false = Ok M
    /\ (a <- double_layer z o add mul cj A ;; c2x2_LD_c z o add mul C T1 T2 a false) = Ok M
    /\ is_contraction D z o add mul (net_LD idb 8 C T1 T2 A (tmap cj A)) [out0 idb; out1 idb] M.
Proof. exact (LD_closed z o add mul cj). Qed.
Print Assumptions C36_corner_LD.
(** with the physical indices open; [a] is the double-layer tensor with open indices *)
Theorem C36_corner_LD_open {K : Type} (z o : K) (add mul : K -> K -> K) (cj : K -> K) :
  semi_ring_theory z o add mul eq -> forall D C T1 T2 A a, fits D (net_LD idb 13 C T1 T2 A (tmap cj A)) ->
  is_contraction D z o add mul [(A, snd (nth 3 (net_LD idb 13 C T1 T2 A (tmap cj A)) (A, []))); (tmap cj A, snd (nth 4 (net_LD idb 13 C T1 T2 A (tmap cj A)) (A, [])))] [V 8; V 13; FF 9 11; FF 2 3; FF 6 7; FF 10 12] a ->
  exists M, c2x2_LD_sl_c z o add mul cj C T1 T2 A true = Ok M /\ c2x2_LD_c z o add mul C T1 T2 a true = Ok M
    /\ is_contraction D z o add mul (net_LD idb 13 C T1 T2 A (tmap cj A)) [out0 idb; out1 idb; V 8; V 13] M.
Proof. exact (LD_open z o add mul cj). Qed.
Print Assumptions C36_corner_LD_open.

Example C36_corner_example : (fits exD (net_LU idb 8 exC exT1 exT2 exA (tmap gconj exA)) /\ fits exD (net_LU idb 13 exC exT1 exT2 exA (tmap gconj exA))) /\
  exists M, c2x2_LU_sl_c g0 g1 gadd gmul gconj exC exT1 exT2 exA false = Ok M
  /\ (a <- double_layer g0 g1 gadd gmul gconj exA ;; c2x2_LU_c g0 g1 gadd gmul exC exT1 exT2 a false) = Ok M
  /\ tdims M = [1; 4] /\ hd g0 (tdata M) = (-115756, -62908)%Z /\ c2x2_LU_sl_c g0 g1 gadd gmul (fun x => x) exC exT1 exT2 exA false <> Ok M.
Proof. exact (Logic.conj ex_fits ex_LU). Qed.

(** The two halves of the 4x4 network for the move up. *)
Theorem C65_halves_UP {K : Type} (z o : K) (add mul : K -> K -> K) (cj : K -> K) :
  semi_ring_theory z o add mul eq -> forall D D' k1 k2 k3 k4,
  fits D (half_net cj net_RU net_RD true false k1 k2) -> fits D' (half_net cj net_LU net_LD false false k3 k4) ->
  exists h1 h2, halves_UP z o add mul cj true k1 k2 k3 k4 = Ok (h1, h2)
    /\ (a <- layer z o add mul cj k1 ;; b <- layer z o add mul cj k2 ;; c <- layer z o add mul cj k3 ;; d <- layer z o add mul cj k4 ;;
        halves_UP z o add mul cj false a b c d) = Ok (h1, h2)
    /\ is_contraction D z o add mul (half_net cj net_RU net_RD true false k1 k2) (half_out true false) h1
    /\ is_contraction D' z o add mul (half_net cj net_LU net_LD false false k3 k4) (half_out false false) h2.
Proof. exact (halves_UP_ok z o add mul cj). Qed.
Print Assumptions C65_halves_UP.

(** The two halves of the 4x4 network for the move left. *)
Theorem C65_halves_LEFT {K : Type} (z o : K) (add mul : K -> K -> K) (cj : K -> K) :
  semi_ring_theory z o add mul eq -> forall D D' k1 k2 k3 k4,
  fits D (half_net cj net_LU net_RU true false k1 k2) -> fits D' (half_net cj net_LD net_RD true true k3 k4) ->
  exists h1 h2, halves_LEFT z o add mul cj true k1 k2 k3 k4 = Ok (h1, h2)
    /\ (a <- layer z o add mul cj k1 ;; b <- layer z o add mul cj k2 ;; c <- layer z o add mul cj k3 ;; d <- layer z o add mul cj k4 ;;
        halves_LEFT z o add mul cj false a b c d) = Ok (h1, h2)
    /\ is_contraction D z o add mul (half_net cj net_LU net_RU true false k1 k2) (half_out true false) h1
    /\ is_contraction D' z o add mul (half_net cj net_LD net_RD true true k3 k4) (half_out true true) h2.
Proof. exact (halves_LEFT_ok z o add mul cj). Qed.
Print Assumptions C65_halves_LEFT.

(** The two halves of the 4x4 network for the move down. *)
Theorem C65_halves_DOWN {K : Type} (z o : K) (add mul : K -> K -> K) (cj : K -> K) :
  semi_ring_theory z o add mul eq -> forall D D' k1 k2 k3 k4,
  fits D (half_net cj net_LD net_LU false false k1 k2) -> fits D' (half_net cj net_RD net_RU false true k3 k4) ->
  exists h1 h2, halves_DOWN z o add mul cj true k1 k2 k3 k4 = Ok (h1, h2)
    /\ (a <- layer z o add mul cj k1 ;; b <- layer z o add mul cj k2 ;; c <- layer z o add mul cj k3 ;; d <- layer z o add mul cj k4 ;;
        halves_DOWN z o add mul cj false a b c d) = Ok (h1, h2)
    /\ is_contraction D z o add mul (half_net cj net_LD net_LU false false k1 k2) (half_out false false) h1
    /\ is_contraction D' z o add mul (half_net cj net_RD net_RU false true k3 k4) (half_out false true) h2.
Proof. exact (halves_DOWN_ok z o add mul cj). Qed.
Print Assumptions C65_halves_DOWN.

(** The two halves of the 4x4 network for the move right. *)
Theorem C65_halves_RIGHT {K : Type} (z o : K) (add mul : K -> K -> K) (cj : K -> K) :
  semi_ring_theory z o add mul eq -> forall D D' k1 k2 k3 k4,
  fits D (half_net cj net_RD net_LD true true k1 k2) -> fits D' (half_net cj net_RU net_LU false true k3 k4) ->
  exists h1 h2, halves_RIGHT z o add mul cj true k1 k2 k3 k4 = Ok (h1, h2)
    /\ (a <- layer z o add mul cj k1 ;; b <- layer z o add mul cj k2 ;; c <- layer z o add mul cj k3 ;; d <- layer z o add mul cj k4 ;;
        halves_RIGHT z o add mul cj false a b c d) = Ok (h1, h2)
    /\ is_contraction D z o add mul (half_net cj net_RD net_LD true true k1 k2) (half_out true true) h1
    /\ is_contraction D' z o add mul (half_net cj net_RU net_LU false true k3 k4) (half_out false true) h2.
Proof. exact (halves_RIGHT_ok z o add mul cj). Qed.
Print Assumptions C65_halves_RIGHT.

(** The corners and the half-row or half-column absorbing one more row or column, move up. *)
Theorem C65_absorb_UP {K : Type} (z o : K) (add mul : K -> K -> K) (cj : K -> K) :
  semi_ring_theory z o add mul eq -> forall D1 D2 D C1 T1 T T2 C2 A P2 Pt2 P1 Pt1, 
  fits D1 (net_C_UP1 C1 T1 Pt1) -> fits D2 (net_C_UP2 C2 T2 P2) -> fits D (net_T_UP T Pt2 P1 A (tmap cj A)) ->
  exists n1 n2 nt, absorb_UP z o add mul cj C1 T1 T T2 C2 A P2 Pt2 P1 Pt1 true = Ok (n1, n2, nt)
    /\ (a <- double_layer z o add mul cj A ;; absorb_UP z o add mul cj C1 T1 T T2 C2 a P2 Pt2 P1 Pt1 false) = Ok (n1, n2, nt)
    /\ is_contraction D1 z o add mul (net_C_UP1 C1 T1 Pt1) [V 4; V 3] n1
    /\ is_contraction D2 z o add mul (net_C_UP2 C2 T2 P2) [V 2; V 4] n2
    /\ is_contraction D z o add mul (net_T_UP T Pt2 P1 A (tmap cj A)) [V 4; FF 5 6; V 7] nt.
Proof. exact (abs_UP z o add mul cj). Qed.
Print Assumptions C65_absorb_UP.

(** The corners and the half-row or half-column absorbing one more row or column, move left. *)
Theorem C65_absorb_LEFT {K : Type} (z o : K) (add mul : K -> K -> K) (cj : K -> K) :
  semi_ring_theory z o add mul eq -> forall D1 D2 D C1 T1 T T2 C2 A P2 Pt2 P1 Pt1, 
  fits D1 (net_C_LEFT1 C1 T1 Pt1) -> fits D2 (net_C_LEFT2 C2 T2 P2) -> fits D (net_T_LEFT T Pt2 P1 A (tmap cj A)) ->
  exists n1 n2 nt, absorb_LEFT z o add mul cj C1 T1 T T2 C2 A P2 Pt2 P1 Pt1 true = Ok (n1, n2, nt)
    /\ (a <- double_layer z o add mul cj A ;; absorb_LEFT z o add mul cj C1 T1 T T2 C2 a P2 Pt2 P1 Pt1 false) = Ok (n1, n2, nt)
    /\ is_contraction D1 z o add mul (net_C_LEFT1 C1 T1 Pt1) [V 4; V 3] n1
    /\ is_contraction D2 z o add mul (net_C_LEFT2 C2 T2 P2) [V 4; V 3] n2
    /\ is_contraction D z o add mul (net_T_LEFT T Pt2 P1 A (tmap cj A)) [V 4; V 7; FF 5 6] nt.
Proof. exact (abs_LEFT z o add mul cj). Qed.
Print Assumptions C65_absorb_LEFT.

(** The corners and the half-row or half-column absorbing one more row or column, move down. *)
Theorem C65_absorb_DOWN {K : Type} (z o : K) (add mul : K -> K -> K) (cj : K -> K) :
  semi_ring_theory z o add mul eq -> forall D1 D2 D C1 T1 T T2 C2 A P2 Pt2 P1 Pt1, 
  fits D1 (net_C_DOWN1 C1 T1 Pt1) -> fits D2 (net_C_DOWN2 C2 T2 P2) -> fits D (net_T_DOWN T Pt2 P1 A (tmap cj A)) ->
  exists n1 n2 nt, absorb_DOWN z o add mul cj C1 T1 T T2 C2 A P2 Pt2 P1 Pt1 true = Ok (n1, n2, nt)
    /\ (a <- double_layer z o add mul cj A ;; absorb_DOWN z o add mul cj C1 T1 T T2 C2 a P2 Pt2 P1 Pt1 false) = Ok (n1, n2, nt)
    /\ is_contraction D1 z o add mul (net_C_DOWN1 C1 T1 Pt1) [V 2; V 4] n1
    /\ is_contraction D2 z o add mul (net_C_DOWN2 C2 T2 P2) [V 2; V 4] n2
    /\ is_contraction D z o add mul (net_T_DOWN T Pt2 P1 A (tmap cj A)) [FF 5 6; V 4; V 7] nt.
Proof. exact (abs_DOWN z o add mul cj). Qed.
Print Assumptions C65_absorb_DOWN.

(** The same for the right move.  Partial: the mode "sl" needs bonds of equal dimension left and right of the site
    (bonds 5 and 1), see C65_absorb_RIGHT_refuted. *)
Theorem C65_absorb_RIGHT_partial {K : Type} (z o : K) (add mul : K -> K -> K) (cj : K -> K) :
  semi_ring_theory z o add mul eq -> forall D1 D2 D C1 T1 T T2 C2 A P2 Pt2 P1 Pt1, D 1 = D 5 -> 
  fits D1 (net_C_RIGHT1 C1 T1 Pt1) -> fits D2 (net_C_RIGHT2 C2 T2 P2) -> fits D (net_T_RIGHT T Pt2 P1 A (tmap cj A)) ->
  exists n1 n2 nt, absorb_RIGHT z o add mul cj C1 T1 T T2 C2 A P2 Pt2 P1 Pt1 true = Ok (n1, n2, nt)
    /\ (a <- double_layer z o add mul cj A ;; absorb_RIGHT z o add mul cj C1 T1 T T2 C2 a P2 Pt2 P1 Pt1 false) = Ok (n1, n2, nt)
    /\ is_contraction D1 z o add mul (net_C_RIGHT1 C1 T1 Pt1) [V 4; V 3] n1
    /\ is_contraction D2 z o add mul (net_C_RIGHT2 C2 T2 P2) [V 2; V 4] n2
    /\ is_contraction D z o add mul (net_T_RIGHT T Pt2 P1 A (tmap cj A)) [V 4; FF 5 6; V 7] nt.
Proof. exact (abs_RIGHT z o add mul cj). Qed.
Print Assumptions C65_absorb_RIGHT_partial.

(** The right move from the double-layer tensor, without restriction. *)
Theorem C65_absorb_RIGHT_dl {K : Type} (z o : K) (add mul : K -> K -> K) (cj : K -> K) :
  semi_ring_theory z o add mul eq -> forall D1 D2 D C1 T1 T T2 C2 A P2 Pt2 P1 Pt1,
  fits D1 (net_C_RIGHT1 C1 T1 Pt1) -> fits D2 (net_C_RIGHT2 C2 T2 P2) -> fits D (net_T_RIGHT T Pt2 P1 A (tmap cj A)) ->
  exists n1 n2 nt, (a <- double_layer z o add mul cj A ;; absorb_RIGHT z o add mul cj C1 T1 T T2 C2 a P2 Pt2 P1 Pt1 false) = Ok (n1, n2, nt)
    /\ is_contraction D1 z o add mul (net_C_RIGHT1 C1 T1 Pt1) [V 4; V 3] n1
    /\ is_contraction D2 z o add mul (net_C_RIGHT2 C2 T2 P2) [V 2; V 4] n2
    /\ is_contraction D z o add mul (net_T_RIGHT T Pt2 P1 A (tmap cj A)) [V 4; FF 5 6; V 7] nt.
Proof. exact (abs_RIGHT_force z o add mul cj). Qed.
Print Assumptions C65_absorb_RIGHT_dl.

(** With bonds of different dimension left and right of a site the right move in the mode "sl" always raises... *)
Theorem C65_absorb_RIGHT_raises {K : Type} (z o : K) (add mul : K -> K -> K) (cj : K -> K) :
  semi_ring_theory z o add mul eq -> forall D1 D2 D C1 T1 T T2 C2 A P2 Pt2 P1 Pt1,
  fits D1 (net_C_RIGHT1 C1 T1 Pt1) -> fits D2 (net_C_RIGHT2 C2 T2 P2) -> fits D (net_T_RIGHT T Pt2 P1 A (tmap cj A)) ->
  D 1 <> D 5 -> D 0 <> 0 -> D 3 <> 0 -> absorb_RIGHT z o add mul cj C1 T1 T T2 C2 A P2 Pt2 P1 Pt1 true = Err RuntimeError.
Proof. exact (abs_RIGHT_error z o add mul cj). Qed.
Print Assumptions C65_absorb_RIGHT_raises.

(** ... although the mode "dl" succeeds. *)
Theorem C65_absorb_RIGHT_refuted : exists (D D1 D2 : nat -> nat) (C1 T1 T T2 C2 A P2 Pt2 P1 Pt1 : tensor gi),
  fits D1 (net_C_RIGHT1 C1 T1 Pt1) /\ fits D2 (net_C_RIGHT2 C2 T2 P2) /\ fits D (net_T_RIGHT T Pt2 P1 A (tmap gconj A)) /\
  absorb_RIGHT g0 g1 gadd gmul gconj C1 T1 T T2 C2 A P2 Pt2 P1 Pt1 true = Err RuntimeError /\
  exists r, (a <- double_layer g0 g1 gadd gmul gconj A ;; absorb_RIGHT g0 g1 gadd gmul gconj C1 T1 T T2 C2 a P2 Pt2 P1 Pt1 false) = Ok r.
Proof. exact right_refuted. Qed.
Print Assumptions C65_absorb_RIGHT_refuted.

Example C65_example : fits exDa (net_T_UP exT exPt2 exP1 exB (tmap gconj exB)) /\ fits (fun _ => 1) (net_C_UP1 exC1 exU exU) /\ fits (fun _ => 1) (net_C_UP2 exC1 exU exU) /\
  exists n1 n2 nt, absorb_UP g0 g1 gadd gmul gconj exC1 exU exT exU exC1 exB exU exPt2 exP1 exU true = Ok (n1, n2, nt) /\
  (a <- double_layer g0 g1 gadd gmul gconj exB ;; absorb_UP g0 g1 gadd gmul gconj exC1 exU exT exU exC1 a exU exPt2 exP1 exU false) = Ok (n1, n2, nt) /\
  tdims nt = [1; 9; 1] /\ tdata nt <> repeat g0 9.
Proof. exact ex_UP. Qed.
