(** Reduced density matrices on 2x2 patches with any set of open sites. *)
From Verif Require Import Base BaseLemmas Lattice Tensor TensorLemmas Net NetSpec NetProofs NetProofs2 NetProofs3 Corners CornersSpec CornersProofs Rdm RdmSpec RdmProofs.
From Coq Require Import Ring ArithRing Permutation.
Open Scope list_scope.
Open Scope nat_scope.
Open Scope res_scope.

Section R.
Context {K : Type} (z o : K) (add mul : K -> K -> K) (cj : K -> K).
Hypothesis SR : semi_ring_theory z o add mul eq.
Variable D : nat -> nat.
Notation ten := (tensor K).
Notation isc := (is_contraction D z o add mul).
Variables (A : nat -> nat -> ten) (C1 C2 C3 C4 : ten) (Tu Tr Td Tl : nat -> ten).
Notation patch w h l := (patch_net w h l cj A C1 C2 C3 C4 Tu Tr Td Tl).
Notation tn := (tn2x2 cj C1 C2 C3 C4 (Tu 0) (Tl 0) (Tu 1) (Tr 0) (Tr 1) (Td 1) (Td 0) (Tl 1) (A 0 0) (A 1 0) (A 0 1) (A 1 1)).

(** any set of open sites; b k: site k is open *)
Definition osites (b0 b1 b2 b3 : bool) : list (nat * nat) :=
  (if b0 then [(0, 0)] else []) ++ (if b1 then [(1, 0)] else []) ++ (if b2 then [(0, 1)] else []) ++ (if b3 then [(1, 1)] else []).
Definition olabel (b0 b1 b2 b3 : bool) (k : nat) : nat :=
  if nth (Nat.div2 k) [b0; b1; b2; b3] false then 100 + k else 100 + 2 * Nat.div2 k.
Definition oout (b0 b1 b2 b3 : bool) : list nat :=
  (if b0 then [100] else []) ++ (if b1 then [102] else []) ++ (if b2 then [104] else []) ++ (if b3 then [106] else []) ++
  (if b0 then [101] else []) ++ (if b1 then [103] else []) ++ (if b2 then [105] else []) ++ (if b3 then [107] else []).
Ltac t_oe HF := unfold osites, olabel, oout in *; cbn [app nth Nat.div2 Nat.add Nat.mul] in *;
  start SR HF cj; singleE SR;
  [unfold tn2x2; views; cbn [Nat.add nth Nat.div2 Nat.mul]; cein SR|check|reflexivity].
Lemma oe_open b0 b1 b2 b3 : fits D (patch 2 2 (osites b0 b1 b2 b3)) ->
  exists M, (t <- tn (olabel b0 b1 b2 b3) ;; einsum z o add mul t (oout b0 b1 b2 b3)) = Ok M
    /\ isc (patch 2 2 (osites b0 b1 b2 b3)) (patch_out 2 2 (osites b0 b1 b2 b3)) M.
Proof. intros HF. destruct b0; [|abstract (destruct b1, b2, b3; t_oe HF)]. destruct b1; [|abstract (destruct b2, b3; t_oe HF)]. destruct b2, b3; t_oe HF. Qed.

Lemma tn_ext i i' : (forall k, k < 8 -> i k = i' k) -> tn i = tn i'.
Proof. intros H. unfold tn2x2. rewrite (H 0), (H 1), (H 2), (H 3), (H 4), (H 5), (H 6), (H 7) by lia. reflexivity. Qed.
End R.
