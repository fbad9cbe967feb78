(** Corners: single and double layer contract the documented network. *)
From Verif Require Import Base BaseLemmas Tensor TensorLemmas Net NetSpec NetProofs NetProofs2 NetProofs3 Corners CornersSpec CornersProofs.
From Coq Require Import Ring ArithRing Permutation.
Open Scope list_scope.
Open Scope nat_scope.
Open Scope res_scope.

Section C.
Context {K : Type} (z o : K) (add mul : K -> K -> K) (cj : K -> K).
Hypothesis SR : semi_ring_theory z o add mul eq.
Variable D : nat -> nat.
Notation ten := (tensor K).
Notation isc := (is_contraction D z o add mul).
Notation dlayer := (double_layer z o add mul cj).
Ltac leaves HF := leaf SR HF 0; leaf SR HF 1; leaf SR HF 2; leaf SR HF 3; leaf SR HF 4.

Lemma LU_closed C T1 T2 A : fits D (net_LU idb 8 C T1 T2 A (conj cj A)) ->
  exists M, c2x2_LU_sl_c z o add mul cj C T1 T2 A false = Ok M
    /\ (a <- dlayer A ;; c2x2_LU_c z o add mul C T1 T2 a false) = Ok M
    /\ isc (net_LU idb 8 C T1 T2 A (conj cj A)) [out0 idb; out1 idb] M.
Proof. intros HF. leaves HF. conj_eqs HF cj A 3 4. both SR.
  - unfold c2x2_LU_sl_c. cbn [negb]. step ltac:(cdot SR). step ltac:(cdot SR). step ltac:(cview [V 2; V 3; V 4; V 5; V 6; V 7]).
    step ltac:(cdot SR). step ltac:(cdot SR). step cperm. cview [F (V 5) (FF 9 11); F (V 4) (FF 10 12)].
  - step ltac:(unfold double_layer; step ltac:(cein SR); cview [FF 2 3; FF 6 7; FF 9 11; FF 10 12]).
    unfold c2x2_LU_c. cbn [negb]. step ltac:(cdot SR). step ltac:(cdot SR). step ltac:(cdot SR). step cperm. cview [F (V 5) (FF 9 11); F (V 4) (FF 10 12)].
  - check. - check. - reflexivity. Qed.
Lemma LU_open C T1 T2 A a : fits D (net_LU idb 13 C T1 T2 A (conj cj A)) ->
  isc (skipn 3 (net_LU idb 13 C T1 T2 A (conj cj A))) ([V 8; V 13] ++ [FF 2 3; FF 6 7; FF 9 11; FF 10 12]) a ->
  exists M, c2x2_LU_sl_c z o add mul cj C T1 T2 A true = Ok M
    /\ c2x2_LU_c z o add mul C T1 T2 a true = Ok M
    /\ isc (net_LU idb 13 C T1 T2 A (conj cj A)) [out0 idb; out1 idb; V 8; V 13] M.
Proof. intros HF Ha. leaves HF. conj_eqs HF cj A 3 4. dleaf Ha (env_of (net_LU idb 13 C T1 T2 A (conj cj A))). both SR.
  - unfold c2x2_LU_sl_c. cbn [negb]. step ltac:(cdot SR). step ltac:(cdot SR). step ltac:(cview [V 2; V 3; V 4; V 5; V 6; V 7]).
    step ltac:(cdot SR). step ltac:(cdot SR). step cperm. cview [F (V 5) (FF 9 11); F (V 4) (FF 10 12); V 8; V 13].
  - unfold c2x2_LU_c. cbn [negb]. step ltac:(cdot SR). step ltac:(cdot SR). step ltac:(cdot SR). step cperm. cview [F (V 5) (FF 9 11); F (V 4) (FF 10 12); V 8; V 13].
  - check. - check. - reflexivity. Qed.
Lemma RU_closed C T1 T2 A : fits D (net_RU idb 8 C T1 T2 A (conj cj A)) ->
  exists M, c2x2_RU_sl_c z o add mul cj C T1 T2 A false = Ok M
    /\ (a <- dlayer A ;; c2x2_RU_c z o add mul C T1 T2 a false) = Ok M
    /\ isc (net_RU idb 8 C T1 T2 A (conj cj A)) [out0 idb; out1 idb] M.
Proof. intros HF. leaves HF. conj_eqs HF cj A 3 4. both SR.
  - unfold c2x2_RU_sl_c. cbn [negb]. step ltac:(cdot SR). step ltac:(cdot SR). step ltac:(cview [V 2; V 3; V 4; V 5; V 6; V 7]).
    step ltac:(cdot SR). step ltac:(cdot SR). step cperm. cview [F (V 5) (FF 9 11); F (V 4) (FF 10 12)].
  - step ltac:(unfold double_layer; step ltac:(cein SR); cview [FF 6 7; FF 9 11; FF 10 12; FF 2 3]).
    unfold c2x2_RU_c. cbn [negb]. step ltac:(cdot SR). step ltac:(cdot SR). step ltac:(cdot SR). step cperm. cview [F (V 5) (FF 9 11); F (V 4) (FF 10 12)].
  - check. - check. - reflexivity. Qed.
Lemma RU_open C T1 T2 A a : fits D (net_RU idb 13 C T1 T2 A (conj cj A)) ->
  isc (skipn 3 (net_RU idb 13 C T1 T2 A (conj cj A))) ([V 8; V 13] ++ [FF 6 7; FF 9 11; FF 10 12; FF 2 3]) a ->
  exists M, c2x2_RU_sl_c z o add mul cj C T1 T2 A true = Ok M
    /\ c2x2_RU_c z o add mul C T1 T2 a true = Ok M
    /\ isc (net_RU idb 13 C T1 T2 A (conj cj A)) [out0 idb; out1 idb; V 8; V 13] M.
Proof. intros HF Ha. leaves HF. conj_eqs HF cj A 3 4. dleaf Ha (env_of (net_RU idb 13 C T1 T2 A (conj cj A))). both SR.
  - unfold c2x2_RU_sl_c. cbn [negb]. step ltac:(cdot SR). step ltac:(cdot SR). step ltac:(cview [V 2; V 3; V 4; V 5; V 6; V 7]).
    step ltac:(cdot SR). step ltac:(cdot SR). step cperm. cview [F (V 5) (FF 9 11); F (V 4) (FF 10 12); V 8; V 13].
  - unfold c2x2_RU_c. cbn [negb]. step ltac:(cdot SR). step ltac:(cdot SR). step ltac:(cdot SR). step cperm. cview [F (V 5) (FF 9 11); F (V 4) (FF 10 12); V 8; V 13].
  - check. - check. - reflexivity. Qed.
Lemma RD_closed C T1 T2 A : fits D (net_RD idb 8 C T1 T2 A (conj cj A)) ->
  exists M, c2x2_RD_sl_c z o add mul cj C T1 T2 A false = Ok M
    /\ (a <- dlayer A ;; c2x2_RD_c z o add mul C T1 T2 a false) = Ok M
    /\ isc (net_RD idb 8 C T1 T2 A (conj cj A)) [out0 idb; out1 idb] M.
Proof. intros HF. leaves HF. conj_eqs HF cj A 3 4. both SR.
  - unfold c2x2_RD_sl_c. cbn [negb]. step ltac:(cdot SR). step ltac:(cdot SR). step ltac:(cview [V 2; V 3; V 4; V 5; V 6; V 7]).
    step ltac:(cdot SR). step ltac:(cdot SR). step cperm. cview [F (V 5) (FF 9 11); F (V 4) (FF 10 12)].
  - step ltac:(unfold double_layer; step ltac:(cein SR); cview [FF 9 11; FF 10 12; FF 2 3; FF 6 7]).
    unfold c2x2_RD_c. cbn [negb]. step ltac:(cdot SR). step ltac:(cdot SR). step ltac:(cdot SR). step cperm. cview [F (V 5) (FF 9 11); F (V 4) (FF 10 12)].
  - check. - check. - reflexivity. Qed.
Lemma RD_open C T1 T2 A a : fits D (net_RD idb 13 C T1 T2 A (conj cj A)) ->
  isc (skipn 3 (net_RD idb 13 C T1 T2 A (conj cj A))) ([V 8; V 13] ++ [FF 9 11; FF 10 12; FF 2 3; FF 6 7]) a ->
  exists M, c2x2_RD_sl_c z o add mul cj C T1 T2 A true = Ok M
    /\ c2x2_RD_c z o add mul C T1 T2 a true = Ok M
    /\ isc (net_RD idb 13 C T1 T2 A (conj cj A)) [out0 idb; out1 idb; V 8; V 13] M.
Proof. intros HF Ha. leaves HF. conj_eqs HF cj A 3 4. dleaf Ha (env_of (net_RD idb 13 C T1 T2 A (conj cj A))). both SR.
  - unfold c2x2_RD_sl_c. cbn [negb]. step ltac:(cdot SR). step ltac:(cdot SR). step ltac:(cview [V 2; V 3; V 4; V 5; V 6; V 7]).
    step ltac:(cdot SR). step ltac:(cdot SR). step cperm. cview [F (V 5) (FF 9 11); F (V 4) (FF 10 12); V 8; V 13].
  - unfold c2x2_RD_c. cbn [negb]. step ltac:(cdot SR). step ltac:(cdot SR). step ltac:(cdot SR). step cperm. cview [F (V 5) (FF 9 11); F (V 4) (FF 10 12); V 8; V 13].
  - check. - check. - reflexivity. Qed.
Lemma LD_closed C T1 T2 A : fits D (net_LD idb 8 C T1 T2 A (conj cj A)) ->
  exists M, c2x2_LD_sl_c z o add mul cj C T1 T2 A false = Ok M
    /\ (a <- dlayer A ;; c2x2_LD_c z o add mul C T1 T2 a false) = Ok M
    /\ isc (net_LD idb 8 C T1 T2 A (conj cj A)) [out0 idb; out1 idb] M.
Proof. intros HF. leaves HF. conj_eqs HF cj A 3 4. both SR.
  - unfold c2x2_LD_sl_c. cbn [negb]. step ltac:(cdot SR). step ltac:(cdot SR). step ltac:(cview [V 5; V 2; V 3; V 6; V 7; V 4]).
    step ltac:(cdot SR). step ltac:(cdot SR). step cperm. cview [F (V 5) (FF 9 11); F (V 4) (FF 10 12)].
  - step ltac:(unfold double_layer; step ltac:(cein SR); cview [FF 9 11; FF 2 3; FF 6 7; FF 10 12]).
    unfold c2x2_LD_c. cbn [negb]. step ltac:(cdot SR). step ltac:(cdot SR). step ltac:(cdot SR). step cperm. cview [F (V 5) (FF 9 11); F (V 4) (FF 10 12)].
  - check. - check. - reflexivity. Qed.
Lemma LD_open C T1 T2 A a : fits D (net_LD idb 13 C T1 T2 A (conj cj A)) ->
  isc (skipn 3 (net_LD idb 13 C T1 T2 A (conj cj A))) ([V 8; V 13] ++ [FF 9 11; FF 2 3; FF 6 7; FF 10 12]) a ->
  exists M, c2x2_LD_sl_c z o add mul cj C T1 T2 A true = Ok M
    /\ c2x2_LD_c z o add mul C T1 T2 a true = Ok M
    /\ isc (net_LD idb 13 C T1 T2 A (conj cj A)) [out0 idb; out1 idb; V 8; V 13] M.
Proof. intros HF Ha. leaves HF. conj_eqs HF cj A 3 4. dleaf Ha (env_of (net_LD idb 13 C T1 T2 A (conj cj A))). both SR.
  - unfold c2x2_LD_sl_c. cbn [negb]. step ltac:(cdot SR). step ltac:(cdot SR). step ltac:(cview [V 5; V 2; V 3; V 6; V 7; V 4]).
    step ltac:(cdot SR). step ltac:(cdot SR). step cperm. cview [F (V 5) (FF 9 11); F (V 4) (FF 10 12); V 8; V 13].
  - unfold c2x2_LD_c. cbn [negb]. step ltac:(cdot SR). step ltac:(cdot SR). step ltac:(cdot SR). step cperm. cview [F (V 5) (FF 9 11); F (V 4) (FF 10 12); V 8; V 13].
  - check. - check. - reflexivity. Qed.
End C.
