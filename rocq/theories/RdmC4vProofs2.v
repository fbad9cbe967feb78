(** Reduced density matrices of the C4v symmetric state: two sites in a row. *)
From Verif Require Import Base BaseLemmas Tensor TensorLemmas Net NetSpec NetProofs NetProofs2 NetProofs3 Corners CornersSpec CornersProofs NetSym NetTrace Rdm RdmSpec CtmC4vSpec RdmC4v RdmC4vSpec RdmC4vProofs.
From Coq Require Import Ring ArithRing Permutation.
Open Scope list_scope.
Open Scope nat_scope.
Open Scope res_scope.

Definition g_left (ts : list leg) := match ts with [a; b; b'; c; d; d'; p; q] => [a; F b b'; c; F d d'; p; q] | _ => ts end.
Definition g_left' (ts : list leg) := match ts with [a; b; b'; c; d; d'; p; q] => [a; F b b'; c; d; d'; p; q] | _ => ts end.
Ltac t_left SR HC HT1 HT2 HA HC' HT' := unfold left_dl; step ltac:(dot2 SR HC HT1); step ltac:(dotr SR HT2); step ltac:(dotr SR HA); step cperm;
  step ltac:(dot2 SR HC' HT'); cdot SR.
Ltac t_left_sl SR g HC HT1 HT2 Ka Kb HC' HT' := unfold left_sl; cbn [app]; step ltac:(dot2 SR HC HT1); step ltac:(dotr SR HT2); step ltac:(cvf flatten);
  step ltac:(dotr SR Ka); step ltac:(dotr SR Kb); step cperm; step ltac:(cvf g); step ltac:(dot2 SR HC' HT'); cdot SR.

Section P.
Context {K : Type} (z o : K) (add mul : K -> K -> K) (cj : K -> K).
Hypothesis SR : semi_ring_theory z o add mul eq.
Variables chi d Dn : nat.
Notation ten := (tensor K).
Notation DP w h := (dims_patch w h chi d Dn).
Notation isc w h := (is_contraction (DP w h) z o add mul).
Variables C T a : ten.
Hypothesis HC : shaped [chi; chi] C.
Hypothesis HT : shaped [chi; chi; Dn * Dn] T.
Hypothesis Ha : shaped [d; Dn; Dn; Dn; Dn] a.
Hypothesis SC : symmetric z chi C.
Hypothesis Sa : turn_invariant z d Dn a.
Let Hb := conj_shaped cj _ a Ha.
Let Sb := conj_turn z d Dn cj a Ha Sa.

Lemma rdm2x1_ok : exists M, rdm2x1 z o add mul cj C T a = Ok M /\ isc 2 1 (patch cj 2 1 [(0, 0); (1, 0)] C T a) (patch_out 2 1 [(0, 0); (1, 0)]) M.
Proof. single_patch SR.
  - open_env (patch cj 2 1 [(0, 0); (1, 0)] C T a).
    leafn C1 SR E (DP 2 1) HC (kC 2 1 0) (lC 2 1 0). leafn C3 SR E (DP 2 1) HC (kC 2 1 2) (lC 2 1 2).
    leafCn C4 SR E (DP 2 1) HC SC (kC 2 1 3) (lC 2 1 3). leafCn C2 SR E (DP 2 1) HC SC (kC 2 1 1) (lC 2 1 1).
    leafn Tl SR E (DP 2 1) HT (kTl 2 1 0) (lTl 2 1 0). leafn Tr SR E (DP 2 1) HT (kTr 2 1 0) (lTr 2 1 0).
    leafn Tu0 SR E (DP 2 1) HT (kTu 2 1 0) (lTu 2 1 0). leafn Td0 SR E (DP 2 1) HT (kTd 2 1 0) (lTd 2 1 0).
    leafn Tu1 SR E (DP 2 1) HT (kTu 2 1 1) (lTu 2 1 1). leafn Td1 SR E (DP 2 1) HT (kTd 2 1 1) (lTd 2 1 1).
    leafn ka0 SR E (DP 2 1) Ha (kS 2 0 0) (lket 2 1 0 0). leafn kb0 SR E (DP 2 1) Hb (S (kS 2 0 0)) (lbra 2 1 0 0).
    leafan ka1 SR E (DP 2 1) Ha Sa 2 (kS 2 1 0) (lket 2 1 1 0). leafan kb1 SR E (DP 2 1) Hb Sb 2 (S (kS 2 1 0)) (lbra 2 1 1 0).
    repof P1 SR (DP 2 1) E (layer_open z o add mul cj a) ltac:(unfold layer_open; step ltac:(ein2 SR ka0 kb0); cvf g_layer).
    repof P2 SR (DP 2 1) E (layer_open z o add mul cj a) ltac:(unfold layer_open; step ltac:(ein2 SR ka1 kb1); cvf g_layer).
    destruct P1 as (A & EA & RA0). apply (same _ _ _ EA) in P2. cbv beta in P2.
    repof L1 SR (DP 2 1) E (left_dl z o add mul C T A) ltac:(t_left SR C1 Tu0 Tl RA0 C4 Td0).
    repof L2 SR (DP 2 1) E (left_dl z o add mul C T A) ltac:(t_left SR C3 Td1 Tr P2 C2 Tu1).
    destruct L1 as (l & El & Rl). apply (same _ _ _ El) in L2. cbv beta in L2.
    unfold rdm2x1. rewrite EA. cbn [bind]. rewrite El. cbn [bind].
    step ltac:(dot2 SR Rl L2). cperm.
  - check. - reflexivity. Qed.
Lemma rdm2x1_sl_ok : exists M, rdm2x1_sl z o add mul cj C T a = Ok M /\ isc 2 1 (patch cj 2 1 [(0, 0); (1, 0)] C T a) (patch_out 2 1 [(0, 0); (1, 0)]) M.
Proof. single_patch SR.
  - open_env (patch cj 2 1 [(0, 0); (1, 0)] C T a).
    leafn C1 SR E (DP 2 1) HC (kC 2 1 0) (lC 2 1 0). leafn C3 SR E (DP 2 1) HC (kC 2 1 2) (lC 2 1 2).
    leafCn C4 SR E (DP 2 1) HC SC (kC 2 1 3) (lC 2 1 3). leafCn C2 SR E (DP 2 1) HC SC (kC 2 1 1) (lC 2 1 1).
    leafn Tl SR E (DP 2 1) HT (kTl 2 1 0) (lTl 2 1 0). leafn Tr SR E (DP 2 1) HT (kTr 2 1 0) (lTr 2 1 0).
    leafn Tu0 SR E (DP 2 1) HT (kTu 2 1 0) (lTu 2 1 0). leafn Td0 SR E (DP 2 1) HT (kTd 2 1 0) (lTd 2 1 0).
    leafn Tu1 SR E (DP 2 1) HT (kTu 2 1 1) (lTu 2 1 1). leafn Td1 SR E (DP 2 1) HT (kTd 2 1 1) (lTd 2 1 1).
    leafn ka0 SR E (DP 2 1) Ha (kS 2 0 0) (lket 2 1 0 0). leafn kb0 SR E (DP 2 1) Hb (S (kS 2 0 0)) (lbra 2 1 0 0).
    leafan ka1 SR E (DP 2 1) Ha Sa 2 (kS 2 1 0) (lket 2 1 1 0). leafan kb1 SR E (DP 2 1) Hb Sb 2 (S (kS 2 1 0)) (lbra 2 1 1 0).
    repof L1 SR (DP 2 1) E (left_sl z o add mul cj false C T a) ltac:(t_left_sl SR g_left C1 Tu0 Tl ka0 kb0 C4 Td0).
    repof L2 SR (DP 2 1) E (left_sl z o add mul cj false C T a) ltac:(t_left_sl SR g_left C3 Td1 Tr ka1 kb1 C2 Tu1).
    destruct L1 as (l & El & Rl). apply (same _ _ _ El) in L2. cbv beta in L2.
    unfold rdm2x1_sl. rewrite El. cbn [bind].
    step ltac:(dot2 SR Rl L2). cperm.
  - check. - reflexivity. Qed.

Lemma rdm3x1_ok : exists M, rdm3x1 z o add mul cj C T a = Ok M /\ isc 3 1 (patch cj 3 1 [(0, 0); (2, 0)] C T a) (patch_out 3 1 [(0, 0); (2, 0)]) M.
Proof. single_patch SR.
  - open_env (patch cj 3 1 [(0, 0); (2, 0)] C T a).
    leafn C1 SR E (DP 3 1) HC (kC 3 1 0) (lC 3 1 0). leafn C3 SR E (DP 3 1) HC (kC 3 1 2) (lC 3 1 2).
    leafCn C4 SR E (DP 3 1) HC SC (kC 3 1 3) (lC 3 1 3). leafCn C2 SR E (DP 3 1) HC SC (kC 3 1 1) (lC 3 1 1).
    leafn Tl SR E (DP 3 1) HT (kTl 3 1 0) (lTl 3 1 0). leafn Tr SR E (DP 3 1) HT (kTr 3 1 0) (lTr 3 1 0).
    leafn Tu0 SR E (DP 3 1) HT (kTu 3 1 0) (lTu 3 1 0). leafn Td0 SR E (DP 3 1) HT (kTd 3 1 0) (lTd 3 1 0).
    leafn Tu1 SR E (DP 3 1) HT (kTu 3 1 1) (lTu 3 1 1). leafn Td1 SR E (DP 3 1) HT (kTd 3 1 1) (lTd 3 1 1).
    leafn Tu2 SR E (DP 3 1) HT (kTu 3 1 2) (lTu 3 1 2). leafn Td2 SR E (DP 3 1) HT (kTd 3 1 2) (lTd 3 1 2).
    leafn ka0 SR E (DP 3 1) Ha (kS 3 0 0) (lket 3 1 0 0). leafn kb0 SR E (DP 3 1) Hb (S (kS 3 0 0)) (lbra 3 1 0 0).
    leafn ka1 SR E (DP 3 1) Ha (kS 3 1 0) (lket 3 1 1 0). leafn kb1 SR E (DP 3 1) Hb (S (kS 3 1 0)) (lbra 3 1 1 0).
    leafan ka2 SR E (DP 3 1) Ha Sa 2 (kS 3 2 0) (lket 3 1 2 0). leafan kb2 SR E (DP 3 1) Hb Sb 2 (S (kS 3 2 0)) (lbra 3 1 2 0).
    repof P0 SR (DP 3 1) E (layer_open z o add mul cj a) ltac:(unfold layer_open; step ltac:(ein2 SR ka0 kb0); cvf g_layer).
    repof P1 SR (DP 3 1) E (layer_open z o add mul cj a) ltac:(unfold layer_open; step ltac:(ein2 SR ka1 kb1); cvf g_layer).
    repof P2 SR (DP 3 1) E (layer_open z o add mul cj a) ltac:(unfold layer_open; step ltac:(ein2 SR ka2 kb2); cvf g_layer).
    destruct P0 as (A & EA & RA0). apply (same _ _ _ EA) in P1, P2. cbv beta in P1, P2.
    repof L1 SR (DP 3 1) E (left_dl z o add mul C T A) ltac:(t_left SR C1 Tu0 Tl RA0 C4 Td0).
    repof L2 SR (DP 3 1) E (left_dl z o add mul C T A) ltac:(t_left SR C3 Td2 Tr P2 C2 Tu2).
    destruct L1 as (l & El & Rl). apply (same _ _ _ El) in L2. cbv beta in L2.
    unfold rdm3x1. rewrite EA. cbn [bind].
    step ltac:(ctrace_of SR @rep_trace4 P1). rewrite El. cbn [bind].
    step ltac:(dot2 SR Td1 Rl). step ltac:(cdot SR). step ltac:(dotl SR Tu1). step ltac:(dotr SR L2). cperm.
  - check. - reflexivity. Qed.
Lemma rdm3x1_sl_ok : exists M, rdm3x1_sl z o add mul cj C T a = Ok M /\ isc 3 1 (patch cj 3 1 [(0, 0); (2, 0)] C T a) (patch_out 3 1 [(0, 0); (2, 0)]) M.
Proof. single_patch SR.
  - open_env (patch cj 3 1 [(0, 0); (2, 0)] C T a).
    leafn C1 SR E (DP 3 1) HC (kC 3 1 0) (lC 3 1 0). leafn C3 SR E (DP 3 1) HC (kC 3 1 2) (lC 3 1 2).
    leafCn C4 SR E (DP 3 1) HC SC (kC 3 1 3) (lC 3 1 3). leafCn C2 SR E (DP 3 1) HC SC (kC 3 1 1) (lC 3 1 1).
    leafn Tl SR E (DP 3 1) HT (kTl 3 1 0) (lTl 3 1 0). leafn Tr SR E (DP 3 1) HT (kTr 3 1 0) (lTr 3 1 0).
    leafn Tu0 SR E (DP 3 1) HT (kTu 3 1 0) (lTu 3 1 0). leafn Td0 SR E (DP 3 1) HT (kTd 3 1 0) (lTd 3 1 0).
    leafn Tu1 SR E (DP 3 1) HT (kTu 3 1 1) (lTu 3 1 1). leafn Td1 SR E (DP 3 1) HT (kTd 3 1 1) (lTd 3 1 1).
    leafn Tu2 SR E (DP 3 1) HT (kTu 3 1 2) (lTu 3 1 2). leafn Td2 SR E (DP 3 1) HT (kTd 3 1 2) (lTd 3 1 2).
    leafn ka0 SR E (DP 3 1) Ha (kS 3 0 0) (lket 3 1 0 0). leafn kb0 SR E (DP 3 1) Hb (S (kS 3 0 0)) (lbra 3 1 0 0).
    leafn ka1 SR E (DP 3 1) Ha (kS 3 1 0) (lket 3 1 1 0). leafn kb1 SR E (DP 3 1) Hb (S (kS 3 1 0)) (V (pket 3 1 1 0) :: tl (lbra 3 1 1 0)).
    leafan ka2 SR E (DP 3 1) Ha Sa 2 (kS 3 2 0) (lket 3 1 2 0). leafan kb2 SR E (DP 3 1) Hb Sb 2 (S (kS 3 2 0)) (lbra 3 1 2 0).
    repof L1 SR (DP 3 1) E (left_sl z o add mul cj true C T a) ltac:(t_left_sl SR g_left' C1 Tu0 Tl ka0 kb0 C4 Td0).
    repof L2 SR (DP 3 1) E (left_sl z o add mul cj true C T a) ltac:(t_left_sl SR g_left' C3 Td2 Tr ka2 kb2 C2 Tu2).
    destruct L1 as (l & El & Rl). apply (same _ _ _ El) in L2. cbv beta in L2.
    unfold rdm3x1_sl. rewrite El. cbn [bind].
    repof V1 SR (DP 3 1) E (view T [size T 0; size T 1; size a 1; size a 1]) ltac:(eapply (rep_view _ _ _ _ _ _ _ (flatten (lTd 3 1 1))); [exact Td1|calc_some|rdc]).
    repof V2 SR (DP 3 1) E (view T [size T 0; size T 1; size a 1; size a 1]) ltac:(eapply (rep_view _ _ _ _ _ _ _ (flatten (lTu 3 1 1))); [exact Tu1|calc_some|rdc]).
    destruct V1 as (T' & ET & RT). apply (same _ _ _ ET) in V2. cbv beta in V2. rewrite ET. cbn [bind].
    step ltac:(dot2 SR RT Rl). step ltac:(dotl SR kb1). step ltac:(dotl SR ka1). step ltac:(dotl SR V2). step ltac:(dotr SR L2). cperm.
  - check. - reflexivity. Qed.
End P.
