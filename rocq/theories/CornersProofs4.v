(** Absorption: single and double layer contract the documented network. *)
From Verif Require Import Base BaseLemmas Tensor TensorLemmas Net NetSpec NetProofs NetProofs2 NetProofs3 Corners CornersSpec CornersProofs.
From Coq Require Import Ring ArithRing Permutation.
Open Scope list_scope.
Open Scope nat_scope.
Open Scope res_scope.

Section C.
Context {K : Type} (z o : K) (add mul : K -> K -> K) (cj : K -> K).
Hypothesis SR : semi_ring_theory z o add mul eq.
Notation ten := (tensor K).
Notation isc D := (is_contraction D z o add mul).
Notation dlayer := (double_layer z o add mul cj).
Notation contract := (tensordot z o add mul).
Notation einsum := (einsum z o add mul).
Ltac leaves3 HF := leaf SR HF 0; leaf SR HF 1; leaf SR HF 2.
Ltac leaves HF := leaf SR HF 0; leaf SR HF 1; leaf SR HF 2; leaf SR HF 3; leaf SR HF 4.

Lemma abs_UP_C1 D C1 T1 Pt1 : fits D (net_C_UP1 C1 T1 Pt1) ->
  exists M, (x <- contract C1 T1 [1] [0] ;; contract Pt1 x [0;1] [0;1]) = Ok M /\ isc D (net_C_UP1 C1 T1 Pt1) [V 4; V 3] M.
Proof. intros HF. leaves3 HF. single SR. - step ltac:(cdot SR). cdot SR. - check. - reflexivity. Qed.
Lemma abs_UP_C2 D C2 T2 P2 : fits D (net_C_UP2 C2 T2 P2) ->
  exists M, (x <- contract C2 T2 [0] [0] ;; contract x P2 [0;2] [0;1]) = Ok M /\ isc D (net_C_UP2 C2 T2 P2) [V 2; V 4] M.
Proof. intros HF. leaves3 HF. single SR. - step ltac:(cdot SR). cdot SR. - check. - reflexivity. Qed.
Lemma abs_UP_dl D T Pt2 P1 A : fits D (net_T_UP T Pt2 P1 A (conj cj A)) ->
  exists M, (A <- dlayer A ;; nT <- contract Pt2 T [0] [0] ;; nT <- contract nT A [0;2] [1;0] ;; contract nT P1 [1;3] [0;1]) = Ok M /\ isc D (net_T_UP T Pt2 P1 A (conj cj A)) [V 4; FF 5 6; V 7] M.
Proof. intros HF. leaves HF. conj_eqs HF cj A 3 4. single SR.
  - step ltac:(t_layer SR idb [FF 1 2; FF 8 9; FF 5 6; FF 10 11]). step ltac:(cdot SR). step ltac:(cdot SR). cdot SR.
  - check. - reflexivity. Qed.
Lemma abs_UP_both D T Pt2 P1 A : fits D (net_T_UP T Pt2 P1 A (conj cj A)) ->
  exists M, (T <- view T [size T 0; size A 1; size A 1; size T 2] ;;
    Pt2 <- view Pt2 [size Pt2 0; size A 2; size A 2; size Pt2 2] ;;
    P1 <- view P1 [size P1 0; size A 4; size A 4; size P1 2] ;;
    nT <- einsum [(T, [0;1;2;3]); (Pt2, [0;8;9;4]); (A, [12;1;8;5;10]); (conj cj A, [12;2;9;6;11]); (P1, [3;10;11;7])] [4;5;6;7] ;;
    view nT [size nT 0; size nT 1 * size nT 2; size nT 3]) = Ok M
    /\ (A <- dlayer A ;; nT <- contract Pt2 T [0] [0] ;; nT <- contract nT A [0;2] [1;0] ;; contract nT P1 [1;3] [0;1]) = Ok M
    /\ isc D (net_T_UP T Pt2 P1 A (conj cj A)) [V 4; FF 5 6; V 7] M.
Proof. intros HF. leaves HF. conj_eqs HF cj A 3 4. both SR.
  - step ltac:(cview [V 0; V 1; V 2; V 3]). step ltac:(cview [V 0; V 8; V 9; V 4]). step ltac:(cview [V 3; V 10; V 11; V 7]). step ltac:(cein SR). cview [V 4; FF 5 6; V 7].
  - step ltac:(t_layer SR idb [FF 1 2; FF 8 9; FF 5 6; FF 10 11]). step ltac:(cdot SR). step ltac:(cdot SR). cdot SR.
  - check. - check. - reflexivity. Qed.
Lemma abs_UP D1 D2 D C1 T1 T T2 C2 A P2 Pt2 P1 Pt1 : 
  fits D1 (net_C_UP1 C1 T1 Pt1) -> fits D2 (net_C_UP2 C2 T2 P2) -> fits D (net_T_UP T Pt2 P1 A (conj cj A)) ->
  exists n1 n2 nt, absorb_UP z o add mul cj C1 T1 T T2 C2 A P2 Pt2 P1 Pt1 true = Ok (n1, n2, nt)
    /\ (a <- dlayer A ;; absorb_UP z o add mul cj C1 T1 T T2 C2 a P2 Pt2 P1 Pt1 false) = Ok (n1, n2, nt)
    /\ isc D1 (net_C_UP1 C1 T1 Pt1) [V 4; V 3] n1 /\ isc D2 (net_C_UP2 C2 T2 P2) [V 2; V 4] n2
    /\ isc D (net_T_UP T Pt2 P1 A (conj cj A)) [V 4; FF 5 6; V 7] nt.
Proof. intros H1 H2 H3. destruct (abs_UP_C1 D1 C1 T1 Pt1 H1) as (n1 & E1 & I1). destruct (abs_UP_C2 D2 C2 T2 P2 H2) as (n2 & E2 & I2).
  destruct (abs_UP_both D T Pt2 P1 A H3) as (nt & E3 & E4 & I3). exists n1, n2, nt.
  split; [|split; [|split; [exact I1|split; [exact I2|exact I3]]]].
  - unfold absorb_UP. cbn [negb]. glue_binds E1. glue_binds E2. rewrite E3. reflexivity.
  - destruct (dlayer A) as [a|e]; [cbn [bind] in E4 |- *|discriminate E4].
    unfold absorb_UP. cbn [negb]. glue_binds E1. glue_binds E2. rewrite E4. reflexivity. Qed.
Lemma abs_UP_force D1 D2 D C1 T1 T T2 C2 A P2 Pt2 P1 Pt1 :
  fits D1 (net_C_UP1 C1 T1 Pt1) -> fits D2 (net_C_UP2 C2 T2 P2) -> fits D (net_T_UP T Pt2 P1 A (conj cj A)) ->
  exists n1 n2 nt, (a <- dlayer A ;; absorb_UP z o add mul cj C1 T1 T T2 C2 a P2 Pt2 P1 Pt1 false) = Ok (n1, n2, nt)
    /\ isc D1 (net_C_UP1 C1 T1 Pt1) [V 4; V 3] n1 /\ isc D2 (net_C_UP2 C2 T2 P2) [V 2; V 4] n2
    /\ isc D (net_T_UP T Pt2 P1 A (conj cj A)) [V 4; FF 5 6; V 7] nt.
Proof. intros H1 H2 H3. destruct (abs_UP_C1 D1 C1 T1 Pt1 H1) as (n1 & E1 & I1). destruct (abs_UP_C2 D2 C2 T2 P2 H2) as (n2 & E2 & I2).
  destruct (abs_UP_dl D T Pt2 P1 A H3) as (nt & E4 & I3). exists n1, n2, nt.
  split; [|split; [exact I1|split; [exact I2|exact I3]]].
  destruct (dlayer A) as [a|e]; [cbn [bind] in E4 |- *|discriminate E4].
    unfold absorb_UP. cbn [negb]. glue_binds E1. glue_binds E2. rewrite E4. reflexivity. Qed.

Lemma abs_LEFT_C1 D C1 T1 Pt1 : fits D (net_C_LEFT1 C1 T1 Pt1) ->
  exists M, (x <- contract C1 T1 [1] [0] ;; contract Pt1 x [0;1] [0;1]) = Ok M /\ isc D (net_C_LEFT1 C1 T1 Pt1) [V 4; V 3] M.
Proof. intros HF. leaves3 HF. single SR. - step ltac:(cdot SR). cdot SR. - check. - reflexivity. Qed.
Lemma abs_LEFT_C2 D C2 T2 P2 : fits D (net_C_LEFT2 C2 T2 P2) ->
  exists M, (x <- contract C2 T2 [1] [1] ;; contract P2 x [0;1] [0;1]) = Ok M /\ isc D (net_C_LEFT2 C2 T2 P2) [V 4; V 3] M.
Proof. intros HF. leaves3 HF. single SR. - step ltac:(cdot SR). cdot SR. - check. - reflexivity. Qed.
Lemma abs_LEFT_dl D T Pt2 P1 A : fits D (net_T_LEFT T Pt2 P1 A (conj cj A)) ->
  exists M, (A <- dlayer A ;; nT <- contract P1 T [0] [0] ;; nT <- contract nT A [0;3] [0;1] ;; nT <- contract nT Pt2 [1;2] [0;1] ;; permute z nT [0;2;1]) = Ok M /\ isc D (net_T_LEFT T Pt2 P1 A (conj cj A)) [V 4; V 7; FF 5 6] M.
Proof. intros HF. leaves HF. conj_eqs HF cj A 3 4. single SR.
  - step ltac:(t_layer SR idb [FF 8 9; FF 1 2; FF 10 11; FF 5 6]). step ltac:(cdot SR). step ltac:(cdot SR). step ltac:(cdot SR). cperm.
  - check. - reflexivity. Qed.
Lemma abs_LEFT_both D T Pt2 P1 A : fits D (net_T_LEFT T Pt2 P1 A (conj cj A)) ->
  exists M, (T <- view T [size T 0; size T 1; size A 2; size A 2] ;;
    P1 <- view P1 [size P1 0; size A 1; size A 1; size P1 2] ;;
    Pt2 <- view Pt2 [size Pt2 0; size A 3; size A 3; size Pt2 2] ;;
    nT <- einsum [(T, [0;1;2;3]); (Pt2, [1;6;7;12]); (A, [8;4;2;6;10]); (conj cj A, [8;5;3;7;11]); (P1, [0;4;5;9])] [9;12;10;11] ;;
    view nT [size nT 0; size nT 1; size nT 2 * size nT 3]) = Ok M
    /\ (A <- dlayer A ;; nT <- contract P1 T [0] [0] ;; nT <- contract nT A [0;3] [0;1] ;; nT <- contract nT Pt2 [1;2] [0;1] ;; permute z nT [0;2;1]) = Ok M
    /\ isc D (net_T_LEFT T Pt2 P1 A (conj cj A)) [V 4; V 7; FF 5 6] M.
Proof. intros HF. leaves HF. conj_eqs HF cj A 3 4. both SR.
  - step ltac:(cview [V 0; V 3; V 1; V 2]). step ltac:(cview [V 0; V 8; V 9; V 4]). step ltac:(cview [V 3; V 10; V 11; V 7]). step ltac:(cein SR). cview [V 4; V 7; FF 5 6].
  - step ltac:(t_layer SR idb [FF 8 9; FF 1 2; FF 10 11; FF 5 6]). step ltac:(cdot SR). step ltac:(cdot SR). step ltac:(cdot SR). cperm.
  - check. - check. - reflexivity. Qed.
Lemma abs_LEFT D1 D2 D C1 T1 T T2 C2 A P2 Pt2 P1 Pt1 : 
  fits D1 (net_C_LEFT1 C1 T1 Pt1) -> fits D2 (net_C_LEFT2 C2 T2 P2) -> fits D (net_T_LEFT T Pt2 P1 A (conj cj A)) ->
  exists n1 n2 nt, absorb_LEFT z o add mul cj C1 T1 T T2 C2 A P2 Pt2 P1 Pt1 true = Ok (n1, n2, nt)
    /\ (a <- dlayer A ;; absorb_LEFT z o add mul cj C1 T1 T T2 C2 a P2 Pt2 P1 Pt1 false) = Ok (n1, n2, nt)
    /\ isc D1 (net_C_LEFT1 C1 T1 Pt1) [V 4; V 3] n1 /\ isc D2 (net_C_LEFT2 C2 T2 P2) [V 4; V 3] n2
    /\ isc D (net_T_LEFT T Pt2 P1 A (conj cj A)) [V 4; V 7; FF 5 6] nt.
Proof. intros H1 H2 H3. destruct (abs_LEFT_C1 D1 C1 T1 Pt1 H1) as (n1 & E1 & I1). destruct (abs_LEFT_C2 D2 C2 T2 P2 H2) as (n2 & E2 & I2).
  destruct (abs_LEFT_both D T Pt2 P1 A H3) as (nt & E3 & E4 & I3). exists n1, n2, nt.
  split; [|split; [|split; [exact I1|split; [exact I2|exact I3]]]].
  - unfold absorb_LEFT. cbn [negb]. glue_binds E1. glue_binds E2. rewrite E3. reflexivity.
  - destruct (dlayer A) as [a|e]; [cbn [bind] in E4 |- *|discriminate E4].
    unfold absorb_LEFT. cbn [negb]. glue_binds E1. glue_binds E2. rewrite E4. reflexivity. Qed.
Lemma abs_LEFT_force D1 D2 D C1 T1 T T2 C2 A P2 Pt2 P1 Pt1 :
  fits D1 (net_C_LEFT1 C1 T1 Pt1) -> fits D2 (net_C_LEFT2 C2 T2 P2) -> fits D (net_T_LEFT T Pt2 P1 A (conj cj A)) ->
  exists n1 n2 nt, (a <- dlayer A ;; absorb_LEFT z o add mul cj C1 T1 T T2 C2 a P2 Pt2 P1 Pt1 false) = Ok (n1, n2, nt)
    /\ isc D1 (net_C_LEFT1 C1 T1 Pt1) [V 4; V 3] n1 /\ isc D2 (net_C_LEFT2 C2 T2 P2) [V 4; V 3] n2
    /\ isc D (net_T_LEFT T Pt2 P1 A (conj cj A)) [V 4; V 7; FF 5 6] nt.
Proof. intros H1 H2 H3. destruct (abs_LEFT_C1 D1 C1 T1 Pt1 H1) as (n1 & E1 & I1). destruct (abs_LEFT_C2 D2 C2 T2 P2 H2) as (n2 & E2 & I2).
  destruct (abs_LEFT_dl D T Pt2 P1 A H3) as (nt & E4 & I3). exists n1, n2, nt.
  split; [|split; [exact I1|split; [exact I2|exact I3]]].
  destruct (dlayer A) as [a|e]; [cbn [bind] in E4 |- *|discriminate E4].
    unfold absorb_LEFT. cbn [negb]. glue_binds E1. glue_binds E2. rewrite E4. reflexivity. Qed.

Lemma abs_DOWN_C1 D C1 T1 Pt1 : fits D (net_C_DOWN1 C1 T1 Pt1) ->
  exists M, (x <- contract C1 T1 [0] [1] ;; contract x Pt1 [0;2] [0;1]) = Ok M /\ isc D (net_C_DOWN1 C1 T1 Pt1) [V 2; V 4] M.
Proof. intros HF. leaves3 HF. single SR. - step ltac:(cdot SR). cdot SR. - check. - reflexivity. Qed.
Lemma abs_DOWN_C2 D C2 T2 P2 : fits D (net_C_DOWN2 C2 T2 P2) ->
  exists M, (x <- contract C2 T2 [0] [2] ;; contract x P2 [0;2] [0;1]) = Ok M /\ isc D (net_C_DOWN2 C2 T2 P2) [V 2; V 4] M.
Proof. intros HF. leaves3 HF. single SR. - step ltac:(cdot SR). cdot SR. - check. - reflexivity. Qed.
Lemma abs_DOWN_dl D T Pt2 P1 A : fits D (net_T_DOWN T Pt2 P1 A (conj cj A)) ->
  exists M, (A <- dlayer A ;; nT <- contract P1 T [0] [1] ;; nT <- contract nT A [0;2] [1;2] ;; nT <- contract nT Pt2 [1;3] [0;1] ;; permute z nT [1;0;2]) = Ok M /\ isc D (net_T_DOWN T Pt2 P1 A (conj cj A)) [FF 5 6; V 4; V 7] M.
Proof. intros HF. leaves HF. conj_eqs HF cj A 3 4. single SR.
  - step ltac:(t_layer SR idb [FF 5 6; FF 8 9; FF 1 2; FF 10 11]). step ltac:(cdot SR). step ltac:(cdot SR). step ltac:(cdot SR). cperm.
  - check. - reflexivity. Qed.
Lemma abs_DOWN_both D T Pt2 P1 A : fits D (net_T_DOWN T Pt2 P1 A (conj cj A)) ->
  exists M, (T <- view T [size A 3; size A 3; size T 1; size T 2] ;;
    P1 <- view P1 [size P1 0; size A 2; size A 2; size P1 2] ;;
    Pt2 <- view Pt2 [size Pt2 0; size A 4; size A 4; size Pt2 2] ;;
    nT <- einsum [(T, [0;1;2;3]); (Pt2, [3;10;11;7]); (A, [12;5;8;0;10]); (conj cj A, [12;6;9;1;11]); (P1, [2;8;9;4])] [5;6;4;7] ;;
    view nT [size nT 0 * size nT 1; size nT 2; size nT 3]) = Ok M
    /\ (A <- dlayer A ;; nT <- contract P1 T [0] [1] ;; nT <- contract nT A [0;2] [1;2] ;; nT <- contract nT Pt2 [1;3] [0;1] ;; permute z nT [1;0;2]) = Ok M
    /\ isc D (net_T_DOWN T Pt2 P1 A (conj cj A)) [FF 5 6; V 4; V 7] M.
Proof. intros HF. leaves HF. conj_eqs HF cj A 3 4. both SR.
  - step ltac:(cview [V 1; V 2; V 0; V 3]). step ltac:(cview [V 0; V 8; V 9; V 4]). step ltac:(cview [V 3; V 10; V 11; V 7]). step ltac:(cein SR). cview [FF 5 6; V 4; V 7].
  - step ltac:(t_layer SR idb [FF 5 6; FF 8 9; FF 1 2; FF 10 11]). step ltac:(cdot SR). step ltac:(cdot SR). step ltac:(cdot SR). cperm.
  - check. - check. - reflexivity. Qed.
Lemma abs_DOWN D1 D2 D C1 T1 T T2 C2 A P2 Pt2 P1 Pt1 : 
  fits D1 (net_C_DOWN1 C1 T1 Pt1) -> fits D2 (net_C_DOWN2 C2 T2 P2) -> fits D (net_T_DOWN T Pt2 P1 A (conj cj A)) ->
  exists n1 n2 nt, absorb_DOWN z o add mul cj C1 T1 T T2 C2 A P2 Pt2 P1 Pt1 true = Ok (n1, n2, nt)
    /\ (a <- dlayer A ;; absorb_DOWN z o add mul cj C1 T1 T T2 C2 a P2 Pt2 P1 Pt1 false) = Ok (n1, n2, nt)
    /\ isc D1 (net_C_DOWN1 C1 T1 Pt1) [V 2; V 4] n1 /\ isc D2 (net_C_DOWN2 C2 T2 P2) [V 2; V 4] n2
    /\ isc D (net_T_DOWN T Pt2 P1 A (conj cj A)) [FF 5 6; V 4; V 7] nt.
Proof. intros H1 H2 H3. destruct (abs_DOWN_C1 D1 C1 T1 Pt1 H1) as (n1 & E1 & I1). destruct (abs_DOWN_C2 D2 C2 T2 P2 H2) as (n2 & E2 & I2).
  destruct (abs_DOWN_both D T Pt2 P1 A H3) as (nt & E3 & E4 & I3). exists n1, n2, nt.
  split; [|split; [|split; [exact I1|split; [exact I2|exact I3]]]].
  - unfold absorb_DOWN. cbn [negb]. glue_binds E1. glue_binds E2. rewrite E3. reflexivity.
  - destruct (dlayer A) as [a|e]; [cbn [bind] in E4 |- *|discriminate E4].
    unfold absorb_DOWN. cbn [negb]. glue_binds E1. glue_binds E2. rewrite E4. reflexivity. Qed.
Lemma abs_DOWN_force D1 D2 D C1 T1 T T2 C2 A P2 Pt2 P1 Pt1 :
  fits D1 (net_C_DOWN1 C1 T1 Pt1) -> fits D2 (net_C_DOWN2 C2 T2 P2) -> fits D (net_T_DOWN T Pt2 P1 A (conj cj A)) ->
  exists n1 n2 nt, (a <- dlayer A ;; absorb_DOWN z o add mul cj C1 T1 T T2 C2 a P2 Pt2 P1 Pt1 false) = Ok (n1, n2, nt)
    /\ isc D1 (net_C_DOWN1 C1 T1 Pt1) [V 2; V 4] n1 /\ isc D2 (net_C_DOWN2 C2 T2 P2) [V 2; V 4] n2
    /\ isc D (net_T_DOWN T Pt2 P1 A (conj cj A)) [FF 5 6; V 4; V 7] nt.
Proof. intros H1 H2 H3. destruct (abs_DOWN_C1 D1 C1 T1 Pt1 H1) as (n1 & E1 & I1). destruct (abs_DOWN_C2 D2 C2 T2 P2 H2) as (n2 & E2 & I2).
  destruct (abs_DOWN_dl D T Pt2 P1 A H3) as (nt & E4 & I3). exists n1, n2, nt.
  split; [|split; [exact I1|split; [exact I2|exact I3]]].
  destruct (dlayer A) as [a|e]; [cbn [bind] in E4 |- *|discriminate E4].
    unfold absorb_DOWN. cbn [negb]. glue_binds E1. glue_binds E2. rewrite E4. reflexivity. Qed.

Lemma abs_RIGHT_C1 D C1 T1 Pt1 : fits D (net_C_RIGHT1 C1 T1 Pt1) ->
  exists M, (x <- contract C1 T1 [1] [2] ;; contract Pt1 x [0;1] [0;1]) = Ok M /\ isc D (net_C_RIGHT1 C1 T1 Pt1) [V 4; V 3] M.
Proof. intros HF. leaves3 HF. single SR. - step ltac:(cdot SR). cdot SR. - check. - reflexivity. Qed.
Lemma abs_RIGHT_C2 D C2 T2 P2 : fits D (net_C_RIGHT2 C2 T2 P2) ->
  exists M, (x <- contract C2 T2 [0] [2] ;; contract x P2 [0;2] [0;1]) = Ok M /\ isc D (net_C_RIGHT2 C2 T2 P2) [V 2; V 4] M.
Proof. intros HF. leaves3 HF. single SR. - step ltac:(cdot SR). cdot SR. - check. - reflexivity. Qed.
Lemma abs_RIGHT_dl D T Pt2 P1 A : fits D (net_T_RIGHT T Pt2 P1 A (conj cj A)) ->
  exists M, (A <- dlayer A ;; nT <- contract Pt2 T [0] [0] ;; nT <- contract nT A [0;2] [0;3] ;; contract nT P1 [1;3] [0;1]) = Ok M /\ isc D (net_T_RIGHT T Pt2 P1 A (conj cj A)) [V 4; FF 5 6; V 7] M.
Proof. intros HF. leaves HF. conj_eqs HF cj A 3 4. single SR.
  - step ltac:(t_layer SR idb [FF 8 9; FF 5 6; FF 10 11; FF 1 2]). step ltac:(cdot SR). step ltac:(cdot SR). cdot SR.
  - check. - reflexivity. Qed.
Lemma abs_RIGHT_both D T Pt2 P1 A : D 1 = D 5 -> fits D (net_T_RIGHT T Pt2 P1 A (conj cj A)) ->
  exists M, (T <- view T [size T 0; size A 2; size A 2; size T 2] ;;
    Pt2 <- view Pt2 [size Pt2 0; size A 1; size A 1; size Pt2 2] ;;
    P1 <- view P1 [size P1 0; size A 3; size A 3; size P1 2] ;;
    nT <- einsum [(T, [0;1;2;3]); (Pt2, [0;4;5;9]); (A, [8;4;10;6;1]); (conj cj A, [8;5;11;7;2]); (P1, [3;6;7;12])] [9;10;11;12] ;;
    view nT [size nT 0; size nT 1 * size nT 2; size nT 3]) = Ok M
    /\ (A <- dlayer A ;; nT <- contract Pt2 T [0] [0] ;; nT <- contract nT A [0;2] [0;3] ;; contract nT P1 [1;3] [0;1]) = Ok M
    /\ isc D (net_T_RIGHT T Pt2 P1 A (conj cj A)) [V 4; FF 5 6; V 7] M.
Proof. intros HE HF. leaves HF. conj_eqs HF cj A 3 4. both SR.
  - step ltac:(cview [V 0; V 1; V 2; V 3]). step ltac:(cview [V 0; V 8; V 9; V 4]). step ltac:(cview [V 3; V 10; V 11; V 7]). step ltac:(cein SR). cview [V 4; FF 5 6; V 7].
  - step ltac:(t_layer SR idb [FF 8 9; FF 5 6; FF 10 11; FF 1 2]). step ltac:(cdot SR). step ltac:(cdot SR). cdot SR.
  - check. - check. - reflexivity. Qed.
Lemma abs_RIGHT D1 D2 D C1 T1 T T2 C2 A P2 Pt2 P1 Pt1 : D 1 = D 5 -> 
  fits D1 (net_C_RIGHT1 C1 T1 Pt1) -> fits D2 (net_C_RIGHT2 C2 T2 P2) -> fits D (net_T_RIGHT T Pt2 P1 A (conj cj A)) ->
  exists n1 n2 nt, absorb_RIGHT z o add mul cj C1 T1 T T2 C2 A P2 Pt2 P1 Pt1 true = Ok (n1, n2, nt)
    /\ (a <- dlayer A ;; absorb_RIGHT z o add mul cj C1 T1 T T2 C2 a P2 Pt2 P1 Pt1 false) = Ok (n1, n2, nt)
    /\ isc D1 (net_C_RIGHT1 C1 T1 Pt1) [V 4; V 3] n1 /\ isc D2 (net_C_RIGHT2 C2 T2 P2) [V 2; V 4] n2
    /\ isc D (net_T_RIGHT T Pt2 P1 A (conj cj A)) [V 4; FF 5 6; V 7] nt.
Proof. intros HE H1 H2 H3. destruct (abs_RIGHT_C1 D1 C1 T1 Pt1 H1) as (n1 & E1 & I1). destruct (abs_RIGHT_C2 D2 C2 T2 P2 H2) as (n2 & E2 & I2).
  destruct (abs_RIGHT_both D T Pt2 P1 A HE H3) as (nt & E3 & E4 & I3). exists n1, n2, nt.
  split; [|split; [|split; [exact I1|split; [exact I2|exact I3]]]].
  - unfold absorb_RIGHT. cbn [negb]. glue_binds E1. glue_binds E2. rewrite E3. reflexivity.
  - destruct (dlayer A) as [a|e]; [cbn [bind] in E4 |- *|discriminate E4].
    unfold absorb_RIGHT. cbn [negb]. glue_binds E1. glue_binds E2. rewrite E4. reflexivity. Qed.
Lemma abs_RIGHT_force D1 D2 D C1 T1 T T2 C2 A P2 Pt2 P1 Pt1 :
  fits D1 (net_C_RIGHT1 C1 T1 Pt1) -> fits D2 (net_C_RIGHT2 C2 T2 P2) -> fits D (net_T_RIGHT T Pt2 P1 A (conj cj A)) ->
  exists n1 n2 nt, (a <- dlayer A ;; absorb_RIGHT z o add mul cj C1 T1 T T2 C2 a P2 Pt2 P1 Pt1 false) = Ok (n1, n2, nt)
    /\ isc D1 (net_C_RIGHT1 C1 T1 Pt1) [V 4; V 3] n1 /\ isc D2 (net_C_RIGHT2 C2 T2 P2) [V 2; V 4] n2
    /\ isc D (net_T_RIGHT T Pt2 P1 A (conj cj A)) [V 4; FF 5 6; V 7] nt.
Proof. intros H1 H2 H3. destruct (abs_RIGHT_C1 D1 C1 T1 Pt1 H1) as (n1 & E1 & I1). destruct (abs_RIGHT_C2 D2 C2 T2 P2 H2) as (n2 & E2 & I2).
  destruct (abs_RIGHT_dl D T Pt2 P1 A H3) as (nt & E4 & I3). exists n1, n2, nt.
  split; [|split; [exact I1|split; [exact I2|exact I3]]].
  destruct (dlayer A) as [a|e]; [cbn [bind] in E4 |- *|discriminate E4].
    unfold absorb_RIGHT. cbn [negb]. glue_binds E1. glue_binds E2. rewrite E4. reflexivity. Qed.

End C.
