(** Reduced density matrices of the C4v symmetric state contract the network of the patch: tools;
    one site. *)
From Verif Require Import Base BaseLemmas Tensor TensorLemmas Net NetSpec NetProofs NetProofs2 NetProofs3 Corners CornersSpec CornersProofs NetSym NetTrace Rdm RdmSpec CtmC4vSpec RdmC4v RdmC4vSpec.
From Coq Require Import Ring ArithRing Permutation.
Open Scope list_scope.
Open Scope nat_scope.
Open Scope res_scope.

(** rdm1x1_sl with the upper T in place *)
Definition rdm1x1_sl_fixed {K : Type} (z o : K) (add mul : K -> K -> K) (cj : K -> K) (C T a : tensor K) : res (tensor K) :=
  e <- ctc z o add mul C T ;;
  x <- tensordot z o add mul e T [2] [0] ;;
  x <- view x [size x 0; size a 2; size a 2; size x 2; size a 3; size a 3] ;;
  x <- tensordot z o add mul x a [1;4] [2;3] ;;
  x <- tensordot z o add mul x (conj cj a) [1;3] [2;3] ;;
  y <- permute z x [0;1;3;6;4;7;2;5] ;;
  x <- view y [size x 0; size x 1; size a 1 ^ 2; size a 4 ^ 2; size a 0; size a 0] ;;
  x <- tensordot z o add mul T x [1;2] [0;2] ;;
  tensordot z o add mul x e [0;1;2] [2;0;1].

(** positions of the tensors in [patch w h] *)
Definition kS (w i j : nat) := 2 * (j * w + i).
Definition kTu (w h i : nat) := 2 * (w * h) + i.
Definition kTr (w h j : nat) := 2 * (w * h) + w + j.
Definition kTd (w h i : nat) := 2 * (w * h) + w + h + i.
Definition kTl (w h j : nat) := 2 * (w * h) + w + h + w + j.
Definition kC (w h m : nat) := 2 * (w * h) + w + h + w + h + m.
(** and their legs *)
Definition lTu w h i := [V (topb w h (S i)); V (topb w h i); vfuse w h i 0].
Definition lTr w h j := [V (rigb w h (S j)); V (rigb w h j); hfuse w h w j].
Definition lTd w h i := [V (botb w h i); V (botb w h (S i)); vfuse w h i h].
Definition lTl w h j := [V (lefb w h j); V (lefb w h (S j)); hfuse w h 0 j].
Definition lC w h (m : nat) := nth m [[V (lefb w h 0); V (topb w h 0)]; [V (topb w h w); V (rigb w h 0)];
                              [V (rigb w h h); V (botb w h w)]; [V (botb w h 0); V (lefb w h h)]] [].
Definition lket w h i j := [V (pket w h i j); V (vket w h i j); V (hket w h i j); V (vket w h i (S j)); V (hket w h (S i) j)].
Definition lbra w h i j := [V (pbra w h i j); V (vbra w h i j); V (hbra w h i j); V (vbra w h i (S j)); V (hbra w h (S i) j)].
(** the legs after the code turned the site clockwise *)
Definition turn (ts : list leg) : list leg := match ts with [p; u; l; w; r] => [p; r; u; l; w] | _ => ts end.
Fixpoint turns (n : nat) (ts : list leg) := match n with 0 => ts | S n' => turn (turns n' ts) end.

(** grouping of legs *)
Definition g_corner (ts : list leg) := match ts with [a; b; c; d; e; f; p; q] => [F a (F b c); F d (F e f); p; q] | _ => ts end.
Definition g_layer (ts : list leg) := match ts with [a; a'; b; b'; c; c'; d; d'; p; q] => [F a a'; F b b'; F c c'; F d d'; p; q] | _ => ts end.
Definition g_pairs (ts : list leg) := match ts with [a; b; c; d; p; q] => [F a b; F c d; p; q] | _ => ts end.

Section Leaf.
Context {K : Type} (z o : K) (add mul : K -> K -> K).
Hypothesis SR : semi_ring_theory z o add mul eq.
Variables (chi d Dn : nat) (D : nat -> nat).
Notation rep := (rep z o add mul D).
Variable env : nat -> tensor K.
Lemma lf dims M k ts : shaped dims M -> env k = M -> map (ldim D) ts = dims -> rep env (mkS ts [] [(k, ts)]) M.
Proof. intros [W E] Hk Hd. apply (rep_leaf z o add mul SR); [exact Hk|exact W|now rewrite E]. Qed.
Lemma lfC C k x y : shaped [chi; chi] C -> symmetric z chi C -> env k = C -> map D [x; y] = [chi; chi] ->
  rep env (mkS [V y; V x] [] [(k, [V x; V y])]) C.
Proof. intros [W E] HS Hk Hd. injection Hd as H1 H2. apply (rep_leaf_alt z o add mul SR); [exact Hk|exact W|cbn; now rewrite E, H1, H2| |].
  - intros a Ha. cbn in *. tauto.
  - intros s Hs. cbn [map lval]. apply HS; [rewrite <- H2|rewrite <- H1]; apply Hs; cbn; auto. Qed.
Lemma lfT T k x y f : shaped [chi; chi; Dn * Dn] T -> row_symmetric z chi (Dn * Dn) T -> env k = T -> map (ldim D) [V x; V y; f] = [chi; chi; Dn * Dn] ->
  rep env (mkS [V y; V x; f] [] [(k, [V x; V y; f])]) T.
Proof. intros [W E] HS Hk Hd. injection Hd as H1 H2 H3. apply (rep_leaf_alt z o add mul SR); [exact Hk|exact W|cbn; now rewrite E, H1, H2, H3| |].
  - intros a Ha. cbn in *. tauto.
  - intros s Hs. cbn [map lval]. apply HS; [rewrite <- H2|rewrite <- H1|rewrite <- H3; apply lval_range; intros q Hq]; apply Hs; cbn; auto.
    right. right. apply in_app_iff. now left. Qed.
Lemma conj_shaped (cj : K -> K) dims a : shaped dims a -> shaped dims (conj cj a).
Proof. intros [W E]. split; [now apply twf_tmap|exact E]. Qed.
Lemma conj_turn (cj : K -> K) a : shaped [d; Dn; Dn; Dn; Dn] a -> turn_invariant z d Dn a -> turn_invariant z d Dn (conj cj a).
Proof. intros [W E] H s u l w r H1 H2 H3 H4 H5. assert (Q := H s u l w r H1 H2 H3 H4 H5). unfold entry in *. unfold conj.
  rewrite !tget_tmap. destruct (tget_Some a [s; u; l; w; r] W) as [v1 E1]; [rewrite E; repeat constructor; assumption|].
  destruct (tget_Some a [s; r; u; l; w] W) as [v2 E2]; [rewrite E; repeat constructor; assumption|].
  rewrite E1, E2 in *. cbn. now rewrite Q. Qed.
Lemma lfa n a k p u l w r : shaped [d; Dn; Dn; Dn; Dn] a -> turn_invariant z d Dn a -> env k = a ->
  map D [p; u; l; w; r] = [d; Dn; Dn; Dn; Dn] ->
  rep env (mkS (turns n [V p; V u; V l; V w; V r]) [] [(k, [V p; V u; V l; V w; V r])]) a.
Proof. intros [W E] HS Hk Hd. injection Hd as H1 H2 H3 H4 H5.
  assert (G : exists u' l' w' r', turns n [V p; V u; V l; V w; V r] = [V p; V u'; V l'; V w'; V r'] /\
    map D [u'; l'; w'; r'] = [Dn; Dn; Dn; Dn] /\ (forall x, In x [u; l; w; r] <-> In x [u'; l'; w'; r']) /\
    forall s, (forall x, In x [p; u; l; w; r] -> s x < D x) -> entry z a [s p; s u'; s l'; s w'; s r'] = entry z a [s p; s u; s l; s w; s r]).
  { induction n as [|n IH].
    - exists u, l, w, r. cbn. rewrite H2, H3, H4, H5. repeat split; auto.
    - destruct IH as (u' & l' & w' & r' & E1 & E2 & E3 & E4). exists r', u', l', w'. cbn [turns]. rewrite E1. injection E2 as X1 X2 X3 X4.
      split; [reflexivity|]. split; [cbn; now rewrite X1, X2, X3, X4|]. split.
      + intros x. rewrite E3. cbn. tauto.
      + intros s Hs. rewrite <- E4 by exact Hs. symmetry. assert (Hx : forall x, In x [u'; l'; w'; r'] -> s x < D x).
        { intros x Hx. apply Hs. right. now apply E3. }
        apply HS; [rewrite <- H1|rewrite <- X1|rewrite <- X2|rewrite <- X3|rewrite <- X4]; first [apply Hx; cbn; tauto|apply Hs; cbn; tauto]. }
  destruct G as (u' & l' & w' & r' & -> & E2 & E3 & E4). injection E2 as X1 X2 X3 X4.
  apply (rep_leaf_alt z o add mul SR); [exact Hk|exact W|cbn; now rewrite E, H1, X1, X2, X3, X4| |].
  - intros x Hx. destruct Hx as [->|Hx]; [now left|right]. apply E3. exact Hx.
  - intros s Hs. cbn [map lval]. apply E4. intros x Hx. apply Hs. destruct Hx as [->|Hx]; [now left|right].
    apply E3. exact Hx. Qed.
End Leaf.

(** sizes are read off the bonds *)
Ltac rdc := repeat match goal with
  | |- context [size ?X ?k] => match goal with H : rep _ _ _ _ _ _ _ X |- _ => rewrite (size_rep _ _ _ _ _ _ _ _ H k) end
  | |- context [size ?X ?k] => match goal with H : shaped _ X |- _ => unfold size; rewrite (proj2 H) end end;
  cbn [nth map repeat ldim s_out Nat.pow];
  repeat match goal with |- context [dims_patch ?w ?h ?a ?b ?c ?l] =>
    let v := eval cbv in (dims_patch w h a b c l) in change (dims_patch w h a b c l) with v end;
  repeat apply cons_eq; try reflexivity; ring.
(** view; the new legs are [f] of the old ones *)
Ltac cvf f := idtac; match goal with |- exists M, view ?T _ = Ok M /\ _ => match goal with H : rep _ _ _ _ _ _ (mkS ?ts _ _) T |- _ =>
  let l := eval vm_compute in (f ts) in eapply (rep_view _ _ _ _ _ _ _ l); [exact H|calc_some|rdc] end end.
Ltac cvl l := idtac; let l' := eval vm_compute in l in eapply (rep_view _ _ _ _ _ _ _ l'); [eassumption|calc_some|rdc].
Definition flatten (ts : list leg) : list leg := map V (flat_map bonds ts).
Ltac dot2 SR H1 H2 := idtac; eapply (rep_dot _ _ _ _ SR); [exact H1|exact H2|calc_some].
Ltac dotl SR H1 := idtac; eapply (rep_dot _ _ _ _ SR); [exact H1|eassumption|calc_some].
Ltac dotr SR H2 := idtac; eapply (rep_dot _ _ _ _ SR); [eassumption|exact H2|calc_some].
Ltac ein2 SR H1 H2 := idtac; eapply (rep_einsum _ _ _ _ SR); [apply Forall2_cons; [exact H1|apply Forall2_cons; [exact H2|apply Forall2_nil]]|cbn [map snd]; calc_some].
Ltac ctrace SR lem := idtac; eapply (lem _ _ _ _ _ SR); [eassumption|calc_some|reflexivity].
Ltac ctrace_of SR lem H := idtac; eapply (lem _ _ _ _ _ SR); [exact H|calc_some|reflexivity].
(** leaves: [Lf H T k ts] from H : shaped _ T *)
Ltac leafn Q SR E D H k ts := let k' := eval vm_compute in k in let ts' := eval vm_compute in ts in
  match type of SR with semi_ring_theory ?z ?o ?add ?mul _ =>
  assert (Q := lf z o add mul SR D E _ _ k' ts' H eq_refl eq_refl) end.
Ltac leafCn Q SR E D H HS k ts := let k' := eval vm_compute in k in let ts' := eval vm_compute in ts in
  match ts' with [V ?x; V ?y] => match type of SR with semi_ring_theory ?z ?o ?add ?mul _ =>
  assert (Q := lfC z o add mul SR _ D E _ k' x y H HS eq_refl eq_refl) end end.
Ltac leafTn Q SR E D H HS k ts := let k' := eval vm_compute in k in let ts' := eval vm_compute in ts in
  match ts' with [V ?x; V ?y; ?f] => match type of SR with semi_ring_theory ?z ?o ?add ?mul _ =>
  assert (Q := lfT z o add mul SR _ _ D E _ k' x y f H HS eq_refl eq_refl) end end.
Ltac leafan Q SR E D H HS n k ts := let k' := eval vm_compute in k in let ts' := eval vm_compute in ts in
  match ts' with [V ?p; V ?u; V ?l; V ?w; V ?r] => match type of SR with semi_ring_theory ?z ?o ?add ?mul _ =>
  assert (Q := lfa z o add mul SR _ _ D E n _ k' p u l w r H HS eq_refl eq_refl); cbn [turns turn] in Q end end.
Ltac fac_patch n := let r := eval cbv -[tmap conj] in n in
  let l := eval vm_compute in (combine (seq 0 (length r)) (map snd r)) in l.
Ltac single_patch SR := match goal with |- exists M, _ = Ok M /\ is_contraction ?D _ _ _ _ ?n ?out M =>
  let f := fac_patch n in eapply (one_rep _ _ _ _ SR D n f out) end.

(** [m] evaluates to a tensor with the network found by [tac] *)
Ltac repof P SR D E m tac := let s := fresh "s" in evar (s : sym); match type of SR with semi_ring_theory ?z ?o ?add ?mul _ =>
  assert (P : exists M, m = Ok M /\ rep z o add mul D E s M); [subst s; tac|subst s] end.
Lemma same {A} (m : res A) x (Q : A -> Prop) : m = Ok x -> (exists y, m = Ok y /\ Q y) -> Q x.
Proof. intros E (y & E' & H). rewrite E in E'. injection E' as <-. exact H. Qed.

(** the enlarged corner at one of the four corners of the patch; leaves of C, of the T after and
    before it (clockwise), of the ket and of the bra *)
Ltac t_osl SR HC HT1 HT2 Ka Kb := unfold open_sl; step ltac:(dot2 SR HC HT1); step ltac:(dotr SR HT2); step ltac:(cvf flatten);
  step ltac:(dotr SR Ka); step ltac:(dotr SR Kb); step cperm; cvf g_corner.
Ltac t_odl SR HC HT1 HT2 Ka Kb := unfold open_dl; step ltac:(unfold layer_open; step ltac:(ein2 SR Ka Kb); cvf g_layer);
  step ltac:(dot2 SR HC HT1); step ltac:(dotr SR HT2); step ltac:(cdot SR); step cperm; cvf g_pairs.
Ltac t_aux SR HC HT1 HT2 := unfold aux_corner; step ltac:(dot2 SR HC HT1); step ltac:(dotl SR HT2); cperm.
(** leaves of the patch *)
Ltac withE f := match goal with E := env_of _ |- _ => f E end.
Ltac open_env n := pose (E := env_of n); change (env_of n) with E.

Section P.
Context {K : Type} (z o : K) (add mul : K -> K -> K) (cj : K -> K).
Hypothesis SR : semi_ring_theory z o add mul eq.
Variables chi d Dn : nat.
Notation ten := (tensor K).
Notation DP w h := (dims_patch w h chi d Dn).
Notation isc w h := (is_contraction (DP w h) z o add mul).
Variables C T a : ten.
Hypothesis HC : shaped [chi; chi] C.
Hypothesis HT : shaped [chi; chi; Dn * Dn] T.
Hypothesis Ha : shaped [d; Dn; Dn; Dn; Dn] a.
Hypothesis SC : symmetric z chi C.
Let Hb := conj_shaped cj _ a Ha.

Lemma rdm1x1_ok : exists M, rdm1x1 z o add mul cj C T a = Ok M /\ isc 1 1 (patch cj 1 1 [(0, 0)] C T a) (patch_out 1 1 [(0, 0)]) M.
Proof. single_patch SR.
  - open_env (patch cj 1 1 [(0, 0)] C T a).
    leafn C1 SR E (DP 1 1) HC (kC 1 1 0) (lC 1 1 0). leafn C3 SR E (DP 1 1) HC (kC 1 1 2) (lC 1 1 2).
    leafCn C4 SR E (DP 1 1) HC SC (kC 1 1 3) (lC 1 1 3). leafCn C2 SR E (DP 1 1) HC SC (kC 1 1 1) (lC 1 1 1).
    leafn Tl SR E (DP 1 1) HT (kTl 1 1 0) (lTl 1 1 0). leafn Tr SR E (DP 1 1) HT (kTr 1 1 0) (lTr 1 1 0).
    leafn Tu SR E (DP 1 1) HT (kTu 1 1 0) (lTu 1 1 0). leafn Td SR E (DP 1 1) HT (kTd 1 1 0) (lTd 1 1 0).
    leafn ka SR E (DP 1 1) Ha (kS 1 0 0) (lket 1 1 0 0). leafn kb SR E (DP 1 1) Hb (S (kS 1 0 0)) (lbra 1 1 0 0).
    repof P1 SR (DP 1 1) E (ctc z o add mul C T) ltac:(unfold ctc; step ltac:(dot2 SR C1 Tl); dotr SR C4).
    repof P2 SR (DP 1 1) E (ctc z o add mul C T) ltac:(unfold ctc; step ltac:(dot2 SR C3 Tr); dotr SR C2).
    destruct P1 as (e & Ee & R1). assert (R2 := same _ _ _ Ee P2). cbv beta in R2. clear P2.
    unfold rdm1x1. rewrite Ee. cbn [bind].
    step ltac:(dot2 SR R1 Td).
    step ltac:(unfold layer_open; step ltac:(ein2 SR ka kb); cvf g_layer).
    step ltac:(cdot SR). step ltac:(dotl SR Tu). dotr SR R2.
  - check. - reflexivity. Qed.
Lemma rdm1x1_sl_ok : row_symmetric z chi (Dn * Dn) T ->
  exists M, rdm1x1_sl z o add mul cj C T a = Ok M /\ isc 1 1 (patch cj 1 1 [(0, 0)] C T a) (patch_out 1 1 [(0, 0)]) M.
Proof. intros HS. single_patch SR.
  - open_env (patch cj 1 1 [(0, 0)] C T a).
    leafn C1 SR E (DP 1 1) HC (kC 1 1 0) (lC 1 1 0). leafn C3 SR E (DP 1 1) HC (kC 1 1 2) (lC 1 1 2).
    leafCn C4 SR E (DP 1 1) HC SC (kC 1 1 3) (lC 1 1 3). leafCn C2 SR E (DP 1 1) HC SC (kC 1 1 1) (lC 1 1 1).
    leafn Tl SR E (DP 1 1) HT (kTl 1 1 0) (lTl 1 1 0). leafn Tr SR E (DP 1 1) HT (kTr 1 1 0) (lTr 1 1 0).
    leafTn Tu SR E (DP 1 1) HT HS (kTu 1 1 0) (lTu 1 1 0). leafn Td SR E (DP 1 1) HT (kTd 1 1 0) (lTd 1 1 0).
    leafn ka SR E (DP 1 1) Ha (kS 1 0 0) (lket 1 1 0 0). leafn kb SR E (DP 1 1) Hb (S (kS 1 0 0)) (lbra 1 1 0 0).
    repof P1 SR (DP 1 1) E (ctc z o add mul C T) ltac:(unfold ctc; step ltac:(dot2 SR C1 Tl); dotr SR C4).
    repof P2 SR (DP 1 1) E (ctc z o add mul C T) ltac:(unfold ctc; step ltac:(dot2 SR C3 Tr); dotr SR C2).
    destruct P1 as (e & Ee & R1). assert (R2 := same _ _ _ Ee P2). cbv beta in R2. clear P2.
    unfold rdm1x1_sl. rewrite Ee. cbn [bind].
    step ltac:(dot2 SR R1 Td). step ltac:(cvf flatten). step ltac:(cdot SR). step ltac:(cdot SR). step cperm.
    step ltac:(cvl [V (topb 1 1 0); V (botb 1 1 1); vfuse 1 1 0 0; hfuse 1 1 1 0; V (pket 1 1 0 0); V (pbra 1 1 0 0)]).
    step ltac:(dotl SR Tu). dotr SR R2.
  - check. - reflexivity. Qed.

Lemma rdm1x1_sl_fixed_ok : exists M, rdm1x1_sl_fixed z o add mul cj C T a = Ok M /\ isc 1 1 (patch cj 1 1 [(0, 0)] C T a) (patch_out 1 1 [(0, 0)]) M.
Proof. single_patch SR.
  - open_env (patch cj 1 1 [(0, 0)] C T a).
    leafn C1 SR E (DP 1 1) HC (kC 1 1 0) (lC 1 1 0). leafn C3 SR E (DP 1 1) HC (kC 1 1 2) (lC 1 1 2).
    leafCn C4 SR E (DP 1 1) HC SC (kC 1 1 3) (lC 1 1 3). leafCn C2 SR E (DP 1 1) HC SC (kC 1 1 1) (lC 1 1 1).
    leafn Tl SR E (DP 1 1) HT (kTl 1 1 0) (lTl 1 1 0). leafn Tr SR E (DP 1 1) HT (kTr 1 1 0) (lTr 1 1 0).
    leafn Tu SR E (DP 1 1) HT (kTu 1 1 0) (lTu 1 1 0). leafn Td SR E (DP 1 1) HT (kTd 1 1 0) (lTd 1 1 0).
    leafn ka SR E (DP 1 1) Ha (kS 1 0 0) (lket 1 1 0 0). leafn kb SR E (DP 1 1) Hb (S (kS 1 0 0)) (lbra 1 1 0 0).
    repof P1 SR (DP 1 1) E (ctc z o add mul C T) ltac:(unfold ctc; step ltac:(dot2 SR C1 Tl); dotr SR C4).
    repof P2 SR (DP 1 1) E (ctc z o add mul C T) ltac:(unfold ctc; step ltac:(dot2 SR C3 Tr); dotr SR C2).
    destruct P1 as (e & Ee & R1). assert (R2 := same _ _ _ Ee P2). cbv beta in R2. clear P2.
    unfold rdm1x1_sl_fixed. rewrite Ee. cbn [bind].
    step ltac:(dot2 SR R1 Td). step ltac:(cvf flatten). step ltac:(cdot SR). step ltac:(cdot SR). step cperm.
    step ltac:(cvl [V (topb 1 1 0); V (botb 1 1 1); vfuse 1 1 0 0; hfuse 1 1 1 0; V (pket 1 1 0 0); V (pbra 1 1 0 0)]).
    step ltac:(dotl SR Tu). dotr SR R2.
  - check. - reflexivity. Qed.

(** missing site tensors *)
Lemma ddA_ok : exists M, ddA_rdm1x1 z o add mul cj C T a = Ok M /\ isc 1 1 (bra_only cj 1 1 0 0 C T a) (bra_only_out 1 1 0 0) M.
Proof. single_patch SR.
  - open_env (bra_only cj 1 1 0 0 C T a).
    leafCn C1 SR E (DP 1 1) HC SC 5 (lC 1 1 0). leafCn C3 SR E (DP 1 1) HC SC 7 (lC 1 1 2).
    leafCn C4 SR E (DP 1 1) HC SC 8 (lC 1 1 3). leafCn C2 SR E (DP 1 1) HC SC 6 (lC 1 1 1).
    leafn Tl SR E (DP 1 1) HT 4 (lTl 1 1 0). leafn Tr SR E (DP 1 1) HT 2 (lTr 1 1 0).
    leafn Tu SR E (DP 1 1) HT 1 (lTu 1 1 0). leafn Td SR E (DP 1 1) HT 3 (lTd 1 1 0).
    leafn kb SR E (DP 1 1) Hb 0 (lbra 1 1 0 0).
    repof P1 SR (DP 1 1) E (e <- tensordot z o add mul C T [1] [0] ;; e <- tensordot z o add mul e C [1] [0] ;; tensordot z o add mul e T [2] [0])
      ltac:(step ltac:(dot2 SR C1 Tl); step ltac:(dotr SR C4); dotr SR Td).
    repof P2 SR (DP 1 1) E (e <- tensordot z o add mul C T [1] [0] ;; e <- tensordot z o add mul e C [1] [0] ;; tensordot z o add mul e T [2] [0])
      ltac:(step ltac:(dot2 SR C3 Tr); step ltac:(dotr SR C2); dotr SR Tu).
    destruct P1 as (x & Ex & R1). assert (R2 := same _ _ _ Ex P2). cbv beta in R2. clear P2.
    unfold ddA_rdm1x1.
    destruct (tensordot z o add mul C T [1] [0]) as [e1|] eqn:E1; [|discriminate Ex]. cbn [bind] in *.
    destruct (tensordot z o add mul e1 C [1] [0]) as [e2|] eqn:E2; [|discriminate Ex]. cbn [bind] in *.
    rewrite Ex. cbn [bind].
    step ltac:(dot2 SR R1 R2). step cperm. step ltac:(cvf flatten). step cperm. dotl SR kb.
  - check. - reflexivity. Qed.
Lemma aux1_ok : exists M, aux_rdm1x1 z o add mul C T a = Ok M /\
  isc 1 1 (frame 1 1 C T) (bonds_out 1 1 [(true, 0, 0); (false, 0, 0); (true, 0, 1); (false, 1, 0)]) M.
Proof. single_patch SR.
  - open_env (frame 1 1 C T).
    leafn C1 SR E (DP 1 1) HC 4 (lC 1 1 0). leafn C3 SR E (DP 1 1) HC 6 (lC 1 1 2).
    leafCn C4 SR E (DP 1 1) HC SC 7 (lC 1 1 3). leafCn C2 SR E (DP 1 1) HC SC 5 (lC 1 1 1).
    leafn Tl SR E (DP 1 1) HT 3 (lTl 1 1 0). leafn Tr SR E (DP 1 1) HT 1 (lTr 1 1 0).
    leafn Tu SR E (DP 1 1) HT 0 (lTu 1 1 0). leafn Td SR E (DP 1 1) HT 2 (lTd 1 1 0).
    repof P1 SR (DP 1 1) E (ctc z o add mul C T) ltac:(unfold ctc; step ltac:(dot2 SR C1 Tl); dotr SR C4).
    repof P2 SR (DP 1 1) E (ctc z o add mul C T) ltac:(unfold ctc; step ltac:(dot2 SR C3 Tr); dotr SR C2).
    destruct P1 as (e & Ee & R1). assert (R2 := same _ _ _ Ee P2). cbv beta in R2. clear P2.
    unfold aux_rdm1x1. rewrite Ee. cbn [bind].
    step ltac:(dot2 SR R1 Td). step ltac:(dotr SR Tu). step ltac:(dotr SR R2). step cperm. step ltac:(cvf flatten). cperm.
  - check. - reflexivity. Qed.
Lemma aux2_ok : exists M, aux_rdm2x2 z o add mul C T a = Ok M /\
  isc 2 2 (frame 2 2 C T) (bonds_out 2 2 [(true, 0, 0); (false, 0, 0); (true, 1, 0); (false, 2, 0); (true, 0, 2); (false, 0, 1); (true, 1, 2); (false, 2, 1)]) M.
Proof. single_patch SR.
  - open_env (frame 2 2 C T).
    leafn C1 SR E (DP 2 2) HC 8 (lC 2 2 0). leafn C2 SR E (DP 2 2) HC 9 (lC 2 2 1).
    leafn C3 SR E (DP 2 2) HC 10 (lC 2 2 2). leafn C4 SR E (DP 2 2) HC 11 (lC 2 2 3).
    leafn Tu0 SR E (DP 2 2) HT 0 (lTu 2 2 0). leafn Tu1 SR E (DP 2 2) HT 1 (lTu 2 2 1).
    leafn Tr0 SR E (DP 2 2) HT 2 (lTr 2 2 0). leafn Tr1 SR E (DP 2 2) HT 3 (lTr 2 2 1).
    leafn Td0 SR E (DP 2 2) HT 4 (lTd 2 2 0). leafn Td1 SR E (DP 2 2) HT 5 (lTd 2 2 1).
    leafn Tl0 SR E (DP 2 2) HT 6 (lTl 2 2 0). leafn Tl1 SR E (DP 2 2) HT 7 (lTl 2 2 1).
    repof P1 SR (DP 2 2) E (aux_corner z o add mul C T) ltac:(t_aux SR C1 Tu0 Tl0).
    repof P2 SR (DP 2 2) E (aux_corner z o add mul C T) ltac:(t_aux SR C2 Tr0 Tu1).
    repof P3 SR (DP 2 2) E (aux_corner z o add mul C T) ltac:(t_aux SR C3 Td1 Tr1).
    repof P4 SR (DP 2 2) E (aux_corner z o add mul C T) ltac:(t_aux SR C4 Tl1 Td0).
    destruct P1 as (c & Ec & R1). apply (same _ _ _ Ec) in P2, P3, P4. cbv beta in P2, P3, P4.
    unfold aux_rdm2x2. rewrite Ec. cbn [bind].
    repof Q1 SR (DP 2 2) E (tensordot z o add mul c c [1] [0]) ltac:(dot2 SR R1 P2).
    repof Q2 SR (DP 2 2) E (tensordot z o add mul c c [1] [0]) ltac:(dot2 SR P3 P4).
    destruct Q1 as (h & Eh & S1). apply (same _ _ _ Eh) in Q2. cbv beta in Q2. rewrite Eh. cbn [bind].
    step ltac:(dot2 SR S1 Q2). step cperm. step ltac:(cvf flatten). cperm.
  - check. - reflexivity. Qed.
End P.
