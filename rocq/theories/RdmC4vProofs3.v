(** Reduced density matrices of the C4v symmetric state: patches of two by two and three by two sites. *)
From Verif Require Import Base BaseLemmas Tensor TensorLemmas Net NetSpec NetProofs NetProofs2 NetProofs3 Corners CornersSpec CornersProofs NetSym NetTrace Rdm RdmSpec CtmC4vSpec RdmC4v RdmC4vSpec RdmC4vProofs.
From Coq Require Import Ring ArithRing Permutation.
Open Scope list_scope.
Open Scope nat_scope.
Open Scope res_scope.

Definition g_phys (ts : list leg) := match ts with [a; b; p; q] => [a; b; F p q] | _ => ts end.
Definition g_unphys (ts : list leg) := match ts with [F a b; F c d] => [a; b; c; d] | _ => ts end.
Definition reflected (ts : list leg) := match ts with [p; u; l; w; r] => [p; w; l; u; r] | _ => ts end.
Definition g_first (ts : list leg) := match ts with F a b :: r => a :: b :: r | _ => ts end.
Definition g_second (ts : list leg) := match ts with x :: F a b :: r => x :: a :: b :: r | _ => ts end.
Definition g_mid (ts : list leg) := match ts with x :: y :: a :: b :: r => x :: y :: F a b :: r | _ => ts end.
Definition g_dl (ts : list leg) := match ts with [a; a'; b; b'; c; c'; d; d'] => [F a a'; F b b'; F c c'; F d d'] | _ => ts end.

Section Flip.
Context {K : Type} (z o : K) (add mul : K -> K -> K).
Hypothesis SR : semi_ring_theory z o add mul eq.
Variables (d Dn : nat) (D : nat -> nat).
Variable env : nat -> tensor K.
Lemma conj_flip (cj : K -> K) a : shaped [d; Dn; Dn; Dn; Dn] a -> flip_invariant z d Dn a -> flip_invariant z d Dn (conj cj a).
Proof. intros [W E] H s u l w r H1 H2 H3 H4 H5. assert (Q := H s u l w r H1 H2 H3 H4 H5). unfold entry in *. unfold conj.
  rewrite !tget_tmap. destruct (tget_Some a [s; u; l; w; r] W) as [v1 E1]; [rewrite E; repeat constructor; assumption|].
  destruct (tget_Some a [s; w; l; u; r] W) as [v2 E2]; [rewrite E; repeat constructor; assumption|].
  rewrite E1, E2 in *. cbn. now rewrite Q. Qed.
Lemma lff a k p u l w r : shaped [d; Dn; Dn; Dn; Dn] a -> flip_invariant z d Dn a -> env k = a ->
  map D [p; u; l; w; r] = [d; Dn; Dn; Dn; Dn] ->
  rep z o add mul D env (mkS [V p; V w; V l; V u; V r] [] [(k, [V p; V u; V l; V w; V r])]) a.
Proof. intros [W E] HS Hk Hd. injection Hd as H1 H2 H3 H4 H5.
  apply (rep_leaf_alt z o add mul SR); [exact Hk|exact W|cbn; now rewrite E, H1, H2, H3, H4, H5| |].
  - intros x Hx. cbn in *. intuition.
  - intros s Hs. cbn [map lval]. symmetry.
    apply HS; [rewrite <- H1|rewrite <- H2|rewrite <- H3|rewrite <- H4|rewrite <- H5]; apply Hs; cbn; auto 6. Qed.
End Flip.
Ltac leaffn Q SR E D H HS k ts := let k' := eval vm_compute in k in let ts' := eval vm_compute in ts in
  match ts' with [V ?p; V ?u; V ?l; V ?w; V ?r] => match type of SR with semi_ring_theory ?z ?o ?add ?mul _ =>
  assert (Q := lff z o add mul SR _ _ D E _ k' p u l w r H HS eq_refl eq_refl) end end.

Section P.
Context {K : Type} (z o : K) (add mul : K -> K -> K) (cj : K -> K).
Hypothesis SR : semi_ring_theory z o add mul eq.
Variables chi d Dn : nat.
Notation ten := (tensor K).
Notation DP w h := (dims_patch w h chi d Dn).
Notation isc w h := (is_contraction (DP w h) z o add mul).
Variables C T a : ten.
Hypothesis HC : shaped [chi; chi] C.
Hypothesis HT : shaped [chi; chi; Dn * Dn] T.
Hypothesis Ha : shaped [d; Dn; Dn; Dn; Dn] a.
Hypothesis Sa : turn_invariant z d Dn a.
Let Hb := conj_shaped cj _ a Ha.
Let Sb := conj_turn z d Dn cj a Ha Sa.

(** the leaves of the four corners *)
Ltac corners w h E C1 C2 C3 C4 Tu0 Tu1 Tr0 Tr1 Td0 Td1 Tl0 Tl1 ka0 kb0 ka1 kb1 ka2 kb2 ka3 kb3 :=
  leafn C1 SR E (DP w h) HC (kC w h 0) (lC w h 0); leafn C2 SR E (DP w h) HC (kC w h 1) (lC w h 1);
  leafn C3 SR E (DP w h) HC (kC w h 2) (lC w h 2); leafn C4 SR E (DP w h) HC (kC w h 3) (lC w h 3);
  leafn Tu0 SR E (DP w h) HT (kTu w h 0) (lTu w h 0); leafn Tu1 SR E (DP w h) HT (kTu w h (w - 1)) (lTu w h (w - 1));
  leafn Tr0 SR E (DP w h) HT (kTr w h 0) (lTr w h 0); leafn Tr1 SR E (DP w h) HT (kTr w h (h - 1)) (lTr w h (h - 1));
  leafn Td0 SR E (DP w h) HT (kTd w h 0) (lTd w h 0); leafn Td1 SR E (DP w h) HT (kTd w h (w - 1)) (lTd w h (w - 1));
  leafn Tl0 SR E (DP w h) HT (kTl w h 0) (lTl w h 0); leafn Tl1 SR E (DP w h) HT (kTl w h (h - 1)) (lTl w h (h - 1));
  leafan ka0 SR E (DP w h) Ha Sa 0 (kS w 0 0) (lket w h 0 0); leafan kb0 SR E (DP w h) Hb Sb 0 (S (kS w 0 0)) (lbra w h 0 0);
  leafan ka1 SR E (DP w h) Ha Sa 1 (kS w (w - 1) 0) (lket w h (w - 1) 0); leafan kb1 SR E (DP w h) Hb Sb 1 (S (kS w (w - 1) 0)) (lbra w h (w - 1) 0);
  leafan ka2 SR E (DP w h) Ha Sa 2 (kS w (w - 1) (h - 1)) (lket w h (w - 1) (h - 1)); leafan kb2 SR E (DP w h) Hb Sb 2 (S (kS w (w - 1) (h - 1))) (lbra w h (w - 1) (h - 1));
  leafan ka3 SR E (DP w h) Ha Sa 3 (kS w 0 (h - 1)) (lket w h 0 (h - 1)); leafan kb3 SR E (DP w h) Hb Sb 3 (S (kS w 0 (h - 1))) (lbra w h 0 (h - 1)).
Ltac four w h E m t C1 C2 C3 C4 Tu0 Tu1 Tr0 Tr1 Td0 Td1 Tl0 Tl1 ka0 kb0 ka1 kb1 ka2 kb2 ka3 kb3 :=
  let P1 := fresh "P1" in let P2 := fresh "P2" in let P3 := fresh "P3" in let P4 := fresh "P4" in
  repof P1 SR (DP w h) E m ltac:(t C1 Tu0 Tl0 ka0 kb0); repof P2 SR (DP w h) E m ltac:(t C2 Tr0 Tu1 ka1 kb1);
  repof P3 SR (DP w h) E m ltac:(t C3 Td1 Tr1 ka2 kb2); repof P4 SR (DP w h) E m ltac:(t C4 Tl1 Td0 ka3 kb3);
  let c := fresh "c" in let Ec := fresh "Ec" in
  destruct P1 as (c & Ec & P1); apply (same _ _ _ Ec) in P2, P3, P4; cbv beta in P2, P3, P4; rewrite Ec; cbn [bind].

Lemma rdm2x2_ok : exists M, rdm2x2 z o add mul cj C T a = Ok M /\
  isc 2 2 (patch cj 2 2 [(0, 0); (1, 0); (0, 1); (1, 1)] C T a) (patch_out 2 2 [(0, 0); (1, 0); (0, 1); (1, 1)]) M.
Proof. single_patch SR.
  - open_env (patch cj 2 2 [(0, 0); (1, 0); (0, 1); (1, 1)] C T a). corners 2 2 E C1 C2 C3 C4 Tu0 Tu1 Tr0 Tr1 Td0 Td1 Tl0 Tl1 ka0 kb0 ka1 kb1 ka2 kb2 ka3 kb3. unfold rdm2x2.
    four 2 2 E (open_dl z o add mul cj C T a) ltac:(t_odl SR) C1 C2 C3 C4 Tu0 Tu1 Tr0 Tr1 Td0 Td1 Tl0 Tl1 ka0 kb0 ka1 kb1 ka2 kb2 ka3 kb3.
    repof Q1 SR (DP 2 2) E (u <- tensordot z o add mul c c [1] [0] ;; permute z u [0; 3; 1; 2; 4; 5]) ltac:(step ltac:(dot2 SR P1 P2); cperm).
    repof Q2 SR (DP 2 2) E (u <- tensordot z o add mul c c [1] [0] ;; permute z u [0; 3; 1; 2; 4; 5]) ltac:(step ltac:(dot2 SR P3 P4); cperm).
    destruct Q1 as (u & Eu & S1). apply (same _ _ _ Eu) in Q2. cbv beta in Q2.
    destruct (tensordot z o add mul c c [1] [0]) as [u0|]; [|discriminate Eu]. cbn [bind] in *. rewrite Eu. cbn [bind].
    step ltac:(dot2 SR S1 Q2). cperm.
  - check. - reflexivity. Qed.
Lemma rdm2x2_NN_dl_ok : exists M, rdm2x2_NN z o add mul (open_dl z o add mul cj) C T a = Ok M /\
  isc 2 2 (patch cj 2 2 [(0, 0); (0, 1)] C T a) (patch_out 2 2 [(0, 0); (0, 1)]) M.
Proof. single_patch SR.
  - open_env (patch cj 2 2 [(0, 0); (0, 1)] C T a). corners 2 2 E C1 C2 C3 C4 Tu0 Tu1 Tr0 Tr1 Td0 Td1 Tl0 Tl1 ka0 kb0 ka1 kb1 ka2 kb2 ka3 kb3. unfold rdm2x2_NN.
    four 2 2 E (open_dl z o add mul cj C T a) ltac:(t_odl SR) C1 C2 C3 C4 Tu0 Tu1 Tr0 Tr1 Td0 Td1 Tl0 Tl1 ka0 kb0 ka1 kb1 ka2 kb2 ka3 kb3.
    repof Q3 SR (DP 2 2) E (closed z o add mul c) ltac:(unfold closed; ctrace_of SR @rep_trace2 P3).
    repof Q2 SR (DP 2 2) E (closed z o add mul c) ltac:(unfold closed; ctrace_of SR @rep_trace2 P2).
    destruct Q3 as (cc & Ecc & Q3). apply (same _ _ _ Ecc) in Q2. cbv beta in Q2. rewrite Ecc. cbn [bind]. clear P2 P3.
    repof V1 SR (DP 2 2) E (view c [size T 1 * size a 2 ^ 2; size T 1 * size a 3 ^ 2; size a 0 ^ 2]) ltac:(clear P4; cvf g_phys).
    repof V4 SR (DP 2 2) E (view c [size T 1 * size a 2 ^ 2; size T 1 * size a 3 ^ 2; size a 0 ^ 2]) ltac:(clear P1; cvf g_phys).
    destruct V1 as (v & Ev & V1). apply (same _ _ _ Ev) in V4. cbv beta in V4. rewrite Ev. cbn [bind].
    step ltac:(dot2 SR Q3 V4). step ltac:(dotl SR Q2). step ltac:(dotl SR V1). step ltac:(cvf g_unphys). cperm.
  - check. - reflexivity. Qed.
Lemma rdm2x2_NN_sl_ok : exists M, rdm2x2_NN z o add mul (open_sl z o add mul cj) C T a = Ok M /\
  isc 2 2 (patch cj 2 2 [(0, 0); (0, 1)] C T a) (patch_out 2 2 [(0, 0); (0, 1)]) M.
Proof. single_patch SR.
  - open_env (patch cj 2 2 [(0, 0); (0, 1)] C T a). corners 2 2 E C1 C2 C3 C4 Tu0 Tu1 Tr0 Tr1 Td0 Td1 Tl0 Tl1 ka0 kb0 ka1 kb1 ka2 kb2 ka3 kb3. unfold rdm2x2_NN.
    four 2 2 E (open_sl z o add mul cj C T a) ltac:(t_osl SR) C1 C2 C3 C4 Tu0 Tu1 Tr0 Tr1 Td0 Td1 Tl0 Tl1 ka0 kb0 ka1 kb1 ka2 kb2 ka3 kb3.
    repof Q3 SR (DP 2 2) E (closed z o add mul c) ltac:(unfold closed; ctrace_of SR @rep_trace2 P3).
    repof Q2 SR (DP 2 2) E (closed z o add mul c) ltac:(unfold closed; ctrace_of SR @rep_trace2 P2).
    destruct Q3 as (cc & Ecc & Q3). apply (same _ _ _ Ecc) in Q2. cbv beta in Q2. rewrite Ecc. cbn [bind]. clear P2 P3.
    repof V1 SR (DP 2 2) E (view c [size T 1 * size a 2 ^ 2; size T 1 * size a 3 ^ 2; size a 0 ^ 2]) ltac:(clear P4; cvf g_phys).
    repof V4 SR (DP 2 2) E (view c [size T 1 * size a 2 ^ 2; size T 1 * size a 3 ^ 2; size a 0 ^ 2]) ltac:(clear P1; cvf g_phys).
    destruct V1 as (v & Ev & V1). apply (same _ _ _ Ev) in V4. cbv beta in V4. rewrite Ev. cbn [bind].
    step ltac:(dot2 SR Q3 V4). step ltac:(dotl SR Q2). step ltac:(dotl SR V1). step ltac:(cvf g_unphys). cperm.
  - check. - reflexivity. Qed.
Lemma rdm2x2_NNN_dl_ok : exists M, rdm2x2_NNN z o add mul (open_dl z o add mul cj) C T a = Ok M /\
  isc 2 2 (patch cj 2 2 [(0, 0); (1, 1)] C T a) (patch_out 2 2 [(0, 0); (1, 1)]) M.
Proof. single_patch SR.
  - open_env (patch cj 2 2 [(0, 0); (1, 1)] C T a). corners 2 2 E C1 C2 C3 C4 Tu0 Tu1 Tr0 Tr1 Td0 Td1 Tl0 Tl1 ka0 kb0 ka1 kb1 ka2 kb2 ka3 kb3. unfold rdm2x2_NNN.
    four 2 2 E (open_dl z o add mul cj C T a) ltac:(t_odl SR) C1 C2 C3 C4 Tu0 Tu1 Tr0 Tr1 Td0 Td1 Tl0 Tl1 ka0 kb0 ka1 kb1 ka2 kb2 ka3 kb3.
    repof Q4 SR (DP 2 2) E (closed z o add mul c) ltac:(unfold closed; ctrace_of SR @rep_trace2 P4).
    repof Q2 SR (DP 2 2) E (closed z o add mul c) ltac:(unfold closed; ctrace_of SR @rep_trace2 P2).
    destruct Q4 as (cc & Ecc & Q4). apply (same _ _ _ Ecc) in Q2. cbv beta in Q2. rewrite Ecc. cbn [bind]. clear P2 P4.
    repof V1 SR (DP 2 2) E (view c [size T 1 * size a 2 ^ 2; size T 1 * size a 3 ^ 2; size a 0 ^ 2]) ltac:(clear P3; cvf g_phys).
    repof V3 SR (DP 2 2) E (view c [size T 1 * size a 2 ^ 2; size T 1 * size a 3 ^ 2; size a 0 ^ 2]) ltac:(clear P1; cvf g_phys).
    destruct V1 as (v & Ev & V1). apply (same _ _ _ Ev) in V3. cbv beta in V3. rewrite Ev. cbn [bind].
    repof U1 SR (DP 2 2) E (tensordot z o add mul cc v [1] [0]) ltac:(dot2 SR Q4 V1).
    repof U3 SR (DP 2 2) E (tensordot z o add mul cc v [1] [0]) ltac:(dot2 SR Q2 V3).
    destruct U1 as (u & Eu & U1). apply (same _ _ _ Eu) in U3. cbv beta in U3. rewrite Eu. cbn [bind].
    step ltac:(dot2 SR U1 U3). step ltac:(cvf g_unphys). cperm.
  - check. - reflexivity. Qed.
Lemma rdm2x2_NNN_sl_ok : exists M, rdm2x2_NNN z o add mul (open_sl z o add mul cj) C T a = Ok M /\
  isc 2 2 (patch cj 2 2 [(0, 0); (1, 1)] C T a) (patch_out 2 2 [(0, 0); (1, 1)]) M.
Proof. single_patch SR.
  - open_env (patch cj 2 2 [(0, 0); (1, 1)] C T a). corners 2 2 E C1 C2 C3 C4 Tu0 Tu1 Tr0 Tr1 Td0 Td1 Tl0 Tl1 ka0 kb0 ka1 kb1 ka2 kb2 ka3 kb3. unfold rdm2x2_NNN.
    four 2 2 E (open_sl z o add mul cj C T a) ltac:(t_osl SR) C1 C2 C3 C4 Tu0 Tu1 Tr0 Tr1 Td0 Td1 Tl0 Tl1 ka0 kb0 ka1 kb1 ka2 kb2 ka3 kb3.
    repof Q4 SR (DP 2 2) E (closed z o add mul c) ltac:(unfold closed; ctrace_of SR @rep_trace2 P4).
    repof Q2 SR (DP 2 2) E (closed z o add mul c) ltac:(unfold closed; ctrace_of SR @rep_trace2 P2).
    destruct Q4 as (cc & Ecc & Q4). apply (same _ _ _ Ecc) in Q2. cbv beta in Q2. rewrite Ecc. cbn [bind]. clear P2 P4.
    repof V1 SR (DP 2 2) E (view c [size T 1 * size a 2 ^ 2; size T 1 * size a 3 ^ 2; size a 0 ^ 2]) ltac:(clear P3; cvf g_phys).
    repof V3 SR (DP 2 2) E (view c [size T 1 * size a 2 ^ 2; size T 1 * size a 3 ^ 2; size a 0 ^ 2]) ltac:(clear P1; cvf g_phys).
    destruct V1 as (v & Ev & V1). apply (same _ _ _ Ev) in V3. cbv beta in V3. rewrite Ev. cbn [bind].
    repof U1 SR (DP 2 2) E (tensordot z o add mul cc v [1] [0]) ltac:(dot2 SR Q4 V1).
    repof U3 SR (DP 2 2) E (tensordot z o add mul cc v [1] [0]) ltac:(dot2 SR Q2 V3).
    destruct U1 as (u & Eu & U1). apply (same _ _ _ Eu) in U3. cbv beta in U3. rewrite Eu. cbn [bind].
    step ltac:(dot2 SR U1 U3). step ltac:(cvf g_unphys). cperm.
  - check. - reflexivity. Qed.

Lemma aux_NN_ok : exists M, aux_rdm2x2_NN z o add mul cj C T a = Ok M /\
  isc 2 2 (patch_of cj 2 2 [(0, 1); (1, 1)] [] C T a)
    (bonds_out 2 2 [(true, 0, 0); (false, 0, 0); (true, 0, 1); (true, 1, 0); (true, 1, 1); (false, 2, 0)]) M.
Proof. single_patch SR.
  - open_env (patch_of cj 2 2 [(0, 1); (1, 1)] [] C T a).
    leafn C1 SR E (DP 2 2) HC 12 (lC 2 2 0). leafn C2 SR E (DP 2 2) HC 13 (lC 2 2 1).
    leafn C3 SR E (DP 2 2) HC 14 (lC 2 2 2). leafn C4 SR E (DP 2 2) HC 15 (lC 2 2 3).
    leafn Tu0 SR E (DP 2 2) HT 4 (lTu 2 2 0). leafn Tu1 SR E (DP 2 2) HT 5 (lTu 2 2 1).
    leafn Tr0 SR E (DP 2 2) HT 6 (lTr 2 2 0). leafn Tr1 SR E (DP 2 2) HT 7 (lTr 2 2 1).
    leafn Td0 SR E (DP 2 2) HT 8 (lTd 2 2 0). leafn Td1 SR E (DP 2 2) HT 9 (lTd 2 2 1).
    leafn Tl0 SR E (DP 2 2) HT 10 (lTl 2 2 0). leafn Tl1 SR E (DP 2 2) HT 11 (lTl 2 2 1).
    leafan ka2 SR E (DP 2 2) Ha Sa 2 2 (lket 2 2 1 1). leafan kb2 SR E (DP 2 2) Hb Sb 2 3 (lbra 2 2 1 1).
    leafan ka3 SR E (DP 2 2) Ha Sa 3 0 (lket 2 2 0 1). leafan kb3 SR E (DP 2 2) Hb Sb 3 1 (lbra 2 2 0 1).
    unfold aux_rdm2x2_NN.
    repof P1 SR (DP 2 2) E (aux_corner z o add mul C T) ltac:(t_aux SR C1 Tu0 Tl0).
    repof P2 SR (DP 2 2) E (aux_corner z o add mul C T) ltac:(t_aux SR C2 Tr0 Tu1).
    destruct P1 as (h & Eh & P1). apply (same _ _ _ Eh) in P2. cbv beta in P2. rewrite Eh. cbn [bind].
    repof P3 SR (DP 2 2) E (x <- open_sl z o add mul cj C T a ;; closed z o add mul x)
      ltac:(step ltac:(t_osl SR C3 Td1 Tr1 ka2 kb2); unfold closed; ctrace SR @rep_trace2).
    repof P4 SR (DP 2 2) E (x <- open_sl z o add mul cj C T a ;; closed z o add mul x)
      ltac:(step ltac:(t_osl SR C4 Tl1 Td0 ka3 kb3); unfold closed; ctrace SR @rep_trace2).
    destruct P3 as (c & Ec & P3). apply (same _ _ _ Ec) in P4. cbv beta in P4.
    step ltac:(dot2 SR P1 P2).
    destruct (open_sl z o add mul cj C T a) as [c0|]; [|discriminate Ec]. cbn [bind] in *. rewrite Ec. cbn [bind].
    repof V3 SR (DP 2 2) E (view c [size C 0; size a 3 ^ 2; size C 0 * size a 4 ^ 2]) ltac:(clear P4; cvf g_first).
    repof V4 SR (DP 2 2) E (view c [size C 0 * size a 3 ^ 2; size C 0; size a 4 ^ 2]) ltac:(clear P3; cvf g_second).
    destruct V3 as (v & Ev & V3). rewrite Ev. cbn [bind]. step cperm. destruct V4 as (v' & Ev' & V4). rewrite Ev'. cbn [bind].
    step ltac:(dotr SR V4). step ltac:(cdot SR). step cperm. step ltac:(cvf flatten). cperm.
  - check. - reflexivity. Qed.

Lemma rdm3x2_reflected_ok : exists M, rdm3x2_NNNN z o add mul cj C T a = Ok M /\
  isc 3 2 (patch_reflecting cj 3 2 [(1, 1)] [(2, 0); (0, 0)] C T a) (patch_out 3 2 [(2, 0); (0, 0)]) M.
Proof. single_patch SR.
  - open_env (patch_reflecting cj 3 2 [(1, 1)] [(2, 0); (0, 0)] C T a). corners 3 2 E C1 C2 C3 C4 Tu0 Tu1 Tr0 Tr1 Td0 Td1 Tl0 Tl1 ka0 kb0 ka1 kb1 ka2 kb2 ka3 kb3. unfold rdm3x2_NNNN.
    leafn Tum SR E (DP 3 2) HT (kTu 3 2 1) (lTu 3 2 1). leafn Tdm SR E (DP 3 2) HT (kTd 3 2 1) (lTd 3 2 1).
    leafn kam SR E (DP 3 2) Ha (kS 3 1 0) (lket 3 2 1 0). leafn kbm SR E (DP 3 2) Hb (S (kS 3 1 0)) (V (pket 3 2 1 0) :: tl (lbra 3 2 1 0)).
    leafn kan SR E (DP 3 2) Ha (kS 3 1 1) (reflected (lket 3 2 1 1)). leafn kbn SR E (DP 3 2) Hb (S (kS 3 1 1)) (reflected (V (pket 3 2 1 1) :: tl (lbra 3 2 1 1))).
    repof A1 SR (DP 3 2) E (double_layer z o add mul cj a) ltac:(unfold double_layer; step ltac:(ein2 SR kam kbm); cvf g_dl).
    repof A2 SR (DP 3 2) E (double_layer z o add mul cj a) ltac:(unfold double_layer; step ltac:(ein2 SR kan kbn); cvf g_dl).
    destruct A1 as (A & EA & A1). apply (same _ _ _ EA) in A2. cbv beta in A2. rewrite EA. cbn [bind].
    four 3 2 E (open_sl z o add mul cj C T a) ltac:(t_osl SR) C1 C2 C3 C4 Tu0 Tu1 Tr0 Tr1 Td0 Td1 Tl0 Tl1 ka0 kb0 ka1 kb1 ka2 kb2 ka3 kb3.
    repof Q3 SR (DP 3 2) E (closed z o add mul c) ltac:(unfold closed; ctrace_of SR @rep_trace2 P3).
    repof Q4 SR (DP 3 2) E (closed z o add mul c) ltac:(unfold closed; ctrace_of SR @rep_trace2 P4).
    destruct Q3 as (cc & Ecc & Q3). apply (same _ _ _ Ecc) in Q4. cbv beta in Q4. rewrite Ecc. cbn [bind]. clear P3 P4.
    repof V1 SR (DP 3 2) E (view c [size c 0; size C 1; size a 4 ^ 2; size a 0; size a 0]) ltac:(clear P2; cvf g_second).
    destruct V1 as (x & Ex & V1). rewrite Ex. cbn [bind].
    step ltac:(dot2 SR V1 Tum). step ltac:(dotr SR A1). step cperm. step ltac:(cvf g_mid).
    repof V4 SR (DP 3 2) E (view cc [size C 0; size a 3 ^ 2; size cc 1]) ltac:(clear Q3; cvf g_first).
    destruct V4 as (y & Ey & V4). rewrite Ey. cbn [bind].
    step ltac:(dot2 SR V4 Tdm). step ltac:(dotr SR A2). step cperm. step ltac:(cvf g_mid).
    step ltac:(cdot SR). step ltac:(dotl SR Q3). step ltac:(dotl SR P2). cperm.
  - check. - reflexivity. Qed.
Hypothesis Fa : flip_invariant z d Dn a.
Let Fb := conj_flip z d Dn cj a Ha Fa.
Lemma rdm3x2_ok : exists M, rdm3x2_NNNN z o add mul cj C T a = Ok M /\
  isc 3 2 (patch cj 3 2 [(2, 0); (0, 0)] C T a) (patch_out 3 2 [(2, 0); (0, 0)]) M.
Proof. single_patch SR.
  - open_env (patch cj 3 2 [(2, 0); (0, 0)] C T a). corners 3 2 E C1 C2 C3 C4 Tu0 Tu1 Tr0 Tr1 Td0 Td1 Tl0 Tl1 ka0 kb0 ka1 kb1 ka2 kb2 ka3 kb3. unfold rdm3x2_NNNN.
    leafn Tum SR E (DP 3 2) HT (kTu 3 2 1) (lTu 3 2 1). leafn Tdm SR E (DP 3 2) HT (kTd 3 2 1) (lTd 3 2 1).
    leafn kam SR E (DP 3 2) Ha (kS 3 1 0) (lket 3 2 1 0). leafn kbm SR E (DP 3 2) Hb (S (kS 3 1 0)) (V (pket 3 2 1 0) :: tl (lbra 3 2 1 0)).
    leaffn kan SR E (DP 3 2) Ha Fa (kS 3 1 1) (lket 3 2 1 1). leaffn kbn SR E (DP 3 2) Hb Fb (S (kS 3 1 1)) (V (pket 3 2 1 1) :: tl (lbra 3 2 1 1)).
    repof A1 SR (DP 3 2) E (double_layer z o add mul cj a) ltac:(unfold double_layer; step ltac:(ein2 SR kam kbm); cvf g_dl).
    repof A2 SR (DP 3 2) E (double_layer z o add mul cj a) ltac:(unfold double_layer; step ltac:(ein2 SR kan kbn); cvf g_dl).
    destruct A1 as (A & EA & A1). apply (same _ _ _ EA) in A2. cbv beta in A2. rewrite EA. cbn [bind].
    four 3 2 E (open_sl z o add mul cj C T a) ltac:(t_osl SR) C1 C2 C3 C4 Tu0 Tu1 Tr0 Tr1 Td0 Td1 Tl0 Tl1 ka0 kb0 ka1 kb1 ka2 kb2 ka3 kb3.
    repof Q3 SR (DP 3 2) E (closed z o add mul c) ltac:(unfold closed; ctrace_of SR @rep_trace2 P3).
    repof Q4 SR (DP 3 2) E (closed z o add mul c) ltac:(unfold closed; ctrace_of SR @rep_trace2 P4).
    destruct Q3 as (cc & Ecc & Q3). apply (same _ _ _ Ecc) in Q4. cbv beta in Q4. rewrite Ecc. cbn [bind]. clear P3 P4.
    repof V1 SR (DP 3 2) E (view c [size c 0; size C 1; size a 4 ^ 2; size a 0; size a 0]) ltac:(clear P2; cvf g_second).
    destruct V1 as (x & Ex & V1). rewrite Ex. cbn [bind].
    step ltac:(dot2 SR V1 Tum). step ltac:(dotr SR A1). step cperm. step ltac:(cvf g_mid).
    repof V4 SR (DP 3 2) E (view cc [size C 0; size a 3 ^ 2; size cc 1]) ltac:(clear Q3; cvf g_first).
    destruct V4 as (y & Ey & V4). rewrite Ey. cbn [bind].
    step ltac:(dot2 SR V4 Tdm). step ltac:(dotr SR A2). step cperm. step ltac:(cvf g_mid).
    step ltac:(cdot SR). step ltac:(dotl SR Q3). step ltac:(dotl SR P2). cperm.
  - check. - reflexivity. Qed.
End P.
