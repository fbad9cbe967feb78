(** Reduced density matrices contract the network of the patch: one site, two sites. *)
From Verif Require Import Base BaseLemmas Lattice Tensor TensorLemmas Net NetSpec NetProofs NetProofs2 NetProofs3 Corners CornersSpec CornersProofs Rdm RdmSpec.
From Verif Require Ctm.
From Coq Require Import Ring ArithRing Permutation.
Open Scope list_scope.
Open Scope nat_scope.
Open Scope res_scope.

(** make the network explicit in HF and in the goal *)
Ltac expand_net HF := match type of HF with fits ?D ?n =>
  let r := eval cbv -[tmap conj] in n in change (fits D r) in HF; change n with r end.
Definition flat_legs (ts : list leg) : list leg := map V (flat_map bonds ts).
(** view with all fused legs split *)
Ltac cflat := idtac; match goal with |- exists M, view ?T _ = Ok M /\ _ => match goal with H : rep _ _ _ _ _ _ (mkS ?ts _ _) T |- _ =>
  let l := eval vm_compute in (flat_legs ts) in cview l end end.
Ltac cviewe l := idtac; let l' := eval vm_compute in l in cview l'.
Ltac conj_dims_all HF cj := match type of HF with fits ?D ?n =>
  let rec go k := (let a := eval cbn [nth] in (nth k n (mkT [] [], [])) in
    match a with (?A, _) => let b := eval cbn [nth] in (nth (S k) n (mkT [] [], [])) in
      match b with (tmap cj A, _) => conj_eqs HF cj A k (S k); go (S (S k)) | _ => idtac end end) in go 0 end.

(** double-layer tensor of site (i,j) with open physical indices; pairs of ket and bra bonds *)
Definition vv w h i j := FV (vket w h i j) (vbra w h i j).
Definition hh w h i j := FV (hket w h i j) (hbra w h i j).
Definition dbl w h i j := [vv w h i j; hh w h i j; vv w h i (S j); hh w h (S i) j; V (pket w h i j); V (pbra w h i j)].
Ltac t_open SR w h i j := unfold layer_open; step ltac:(cein SR); cviewe (dbl w h i j).

Lemma bind_asc {A B C} (m : res A) (f : A -> res B) (g : B -> res C) (Q : C -> Prop) :
  (exists N, bind m (fun x => bind (f x) g) = Ok N /\ Q N) -> exists N, bind (bind m f) g = Ok N /\ Q N.
Proof. destruct m; exact (fun H => H). Qed.
Ltac views := repeat (apply bind_asc; step cflat); cbn [bind].

Section Leaves.
Context {K : Type} (z o : K) (add mul : K -> K -> K).
Hypothesis SR : semi_ring_theory z o add mul eq.
Variable D : nat -> nat.
Fixpoint all_reps (E : nat -> tensor K) (k : nat) (net : @network K) : Prop :=
  match net with [] => True | f :: r => rep z o add mul D E (mkS (snd f) [] [(k, snd f)]) (fst f) /\ all_reps E (S k) r end.
Lemma reps_from net : fits D net -> forall pre, all_reps (env_of (pre ++ net)) (length pre) net.
Proof. induction net as [|f net IH]; intros HF pre; cbn; [exact I|]. inversion HF as [|? ? [W E] HF']. subst. split.
  - apply (rep_leaf z o add mul SR); [|exact W|exact E]. unfold env_of. rewrite map_app, app_nth2; rewrite map_length; [|lia]. now rewrite Nat.sub_diag.
  - specialize (IH HF' (pre ++ [f])). rewrite app_length, <- app_assoc, Nat.add_1_r in IH. exact IH. Qed.
Lemma reps net : fits D net -> all_reps (env_of net) 0 net.
Proof. intros HF. exact (reps_from net HF []). Qed.
End Leaves.
(** all tensors of the network; E abbreviates their enumeration *)
Ltac leaves SR HF := let E := fresh "E" in let R := fresh "R" in
  pose proof (reps _ _ _ _ SR _ _ HF) as R; match type of HF with fits _ ?n => pose (E := env_of n); change (env_of n) with E in R end;
  cbn [all_reps fst snd] in R; repeat match type of R with _ /\ _ => let Q := fresh "Q" in destruct R as [Q R] end; clear R.
Ltac fold_env := match goal with E := env_of ?n |- _ => change (env_of n) with E end.
Ltac bothE SR := both SR; [fold_env|fold_env|..].
Ltac singleE SR := single SR; [fold_env|..].
(** a patch: unfold, enumerate the tensors, equate ket and bra dimensions *)
Ltac start SR HF cj := expand_net HF; leaves SR HF; conj_dims_all HF cj.

Section R.
Context {K : Type} (z o : K) (add mul : K -> K -> K) (cj : K -> K).
Hypothesis SR : semi_ring_theory z o add mul eq.
Variable D : nat -> nat.
Notation ten := (tensor K).
Notation isc := (is_contraction D z o add mul).
Variables (A : nat -> nat -> ten) (C1 C2 C3 C4 : ten) (Tu Tr Td Tl : nat -> ten).
Notation patch w h l := (patch_net w h l cj A C1 C2 C3 C4 Tu Tr Td Tl).

Lemma one_site : fits D (patch 1 1 [(0, 0)]) ->
  exists M, rdm1x1_sl_c z o add mul cj C1 C2 C3 C4 (Tu 0) (Tr 0) (Td 0) (Tl 0) (A 0 0) None = Ok M
    /\ rdm1x1_dl_c z o add mul cj C1 C2 C3 C4 (Tu 0) (Tr 0) (Td 0) (Tl 0) (A 0 0) None = Ok M
    /\ isc (patch 1 1 [(0, 0)]) (patch_out 1 1 [(0, 0)]) M.
Proof. intros HF. start SR HF cj. bothE SR.
  - unfold rdm1x1_sl_c. cbn [bind app]. do 4 step cflat. cein SR.
  - unfold rdm1x1_dl_c. do 3 step ltac:(cdot SR).
    step ltac:(t_open SR 1 1 0 0).
    do 4 step ltac:(cdot SR). cdot SR.
  - check. - check. - reflexivity. Qed.

Lemma one_site_op Op : fits D (patch 1 1 [(0, 0)] ++ [(Op, [V (pbra 1 1 0 0); V (pket 1 1 0 0)])]) ->
  exists M, rdm1x1_sl_c z o add mul cj C1 C2 C3 C4 (Tu 0) (Tr 0) (Td 0) (Tl 0) (A 0 0) (Some Op) = Ok M
    /\ rdm1x1_dl_c z o add mul cj C1 C2 C3 C4 (Tu 0) (Tr 0) (Td 0) (Tl 0) (A 0 0) (Some Op) = Ok M
    /\ isc (patch 1 1 [(0, 0)] ++ [(Op, [V (pbra 1 1 0 0); V (pket 1 1 0 0)])]) [] M.
Proof. intros HF. start SR HF cj. bothE SR.
  - unfold rdm1x1_sl_c. step ltac:(cdot SR). cbn [app]. do 4 step cflat. cein SR.
  - unfold rdm1x1_dl_c. do 3 step ltac:(cdot SR).
    step ltac:(unfold layer_op; step ltac:(cein SR); cviewe (firstn 4 (dbl 1 1 0 0))).
    do 4 step ltac:(cdot SR). cdot SR.
  - check. - check. - reflexivity. Qed.

Lemma two_sites_h : fits D (patch 2 1 [(0, 0); (1, 0)]) ->
  exists M, (t <- tn2x1 cj C1 C2 C3 C4 (Tu 0) (Tu 1) (Tr 0) (Td 0) (Td 1) (Tl 0) (A 0 0) (A 1 0) ;; einsum z o add mul t out2x1) = Ok M
    /\ rdm2x1_dl_c z o add mul cj C1 (Tu 0) (Tl 0) (A 0 0) C4 (Td 0) C2 (Tr 0) (Tu 1) (A 1 0) C3 (Td 1) = Ok M
    /\ isc (patch 2 1 [(0, 0); (1, 0)]) (patch_out 2 1 [(0, 0); (1, 0)]) M.
Proof. intros HF. start SR HF cj. bothE SR.
  - unfold tn2x1. views. cein SR.
  - unfold rdm2x1_dl_c. step ltac:(t_open SR 2 1 0 0). do 3 step ltac:(cdot SR). step cperm.
    step ltac:(cviewe [F (V (lefb 2 1 1)) (vv 2 1 0 1); F (V (topb 2 1 1)) (hh 2 1 1 0); V (pket 2 1 0 0); V (pbra 2 1 0 0)]).
    step ltac:(cdot SR). step ltac:(cviewe [F (V (lefb 2 1 1)) (vv 2 1 0 1); V (botb 2 1 1)]). step ltac:(cdot SR).
    step ltac:(t_open SR 2 1 1 0). do 3 step ltac:(cdot SR). step cperm.
    step ltac:(cviewe [F (V (topb 2 1 1)) (hh 2 1 1 0); F (V (rigb 2 1 1)) (vv 2 1 1 1); V (pket 2 1 1 0); V (pbra 2 1 1 0)]).
    step ltac:(cdot SR). step ltac:(cviewe [F (V (rigb 2 1 1)) (vv 2 1 1 1); V (botb 2 1 1)]). step ltac:(cdot SR).
    step ltac:(cdot SR). cperm.
  - check. - check. - reflexivity. Qed.
Lemma two_sites_v : fits D (patch 1 2 [(0, 0); (0, 1)]) ->
  exists M, (t <- tn1x2 cj C1 C2 C3 C4 (Tu 0) (Tr 0) (Tr 1) (Td 0) (Tl 0) (Tl 1) (A 0 0) (A 0 1) ;; einsum z o add mul t out1x2) = Ok M
    /\ rdm1x2_dl_c z o add mul cj C1 (Tu 0) (Tl 0) (A 0 0) C2 (Tr 0) C4 (Tl 1) (Td 0) (A 0 1) C3 (Tr 1) = Ok M
    /\ isc (patch 1 2 [(0, 0); (0, 1)]) (patch_out 1 2 [(0, 0); (0, 1)]) M.
Proof. intros HF. start SR HF cj. bothE SR.
  - unfold tn1x2. views. cein SR.
  - unfold rdm1x2_dl_c. step ltac:(t_open SR 1 2 0 0). do 3 step ltac:(cdot SR). step cperm.
    step ltac:(cviewe [F (V (lefb 1 2 1)) (vv 1 2 0 1); F (V (topb 1 2 1)) (hh 1 2 1 0); V (pket 1 2 0 0); V (pbra 1 2 0 0)]).
    step ltac:(cdot SR). step ltac:(cviewe [F (V (topb 1 2 1)) (hh 1 2 1 0); V (rigb 1 2 1)]). step ltac:(cdot SR).
    step ltac:(t_open SR 1 2 0 1). do 3 step ltac:(cdot SR). step cperm.
    step ltac:(cviewe [F (V (lefb 1 2 1)) (vv 1 2 0 1); F (V (botb 1 2 1)) (hh 1 2 1 1); V (pket 1 2 0 1); V (pbra 1 2 0 1)]).
    step ltac:(cdot SR). step cperm. step ltac:(cviewe [V (rigb 1 2 1); F (V (botb 1 2 1)) (hh 1 2 1 1)]). step ltac:(cdot SR).
    step ltac:(cdot SR). cperm.
  - check. - check. - reflexivity. Qed.
End R.
