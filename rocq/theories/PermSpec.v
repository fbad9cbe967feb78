(** Specification of cycle decompositions and of the sign. *)
From Verif Require Import Base.
From Coq Require Import Permutation.
Open Scope list_scope.
Open Scope nat_scope.

Definition is_permutation (sigma : list nat) : Prop := Permutation sigma (seq 0 (length sigma)).

(** [c] is a cycle of sigma: each element is mapped to the next one, the last to the first *)
Definition is_cycle (sigma c : list nat) : Prop :=
  c <> [] /\ forall i, i < length c -> nth_error sigma (nth i c 0) = Some (nth ((i + 1) mod length c) c 0).

(** number of pairs i < j with sigma(i) > sigma(j) *)
Definition inversions (l : list nat) : nat :=
  length (filter (fun p => (fst p <? snd p) && (nth (snd p) l 0 <? nth (fst p) l 0))
                 (list_prod (seq 0 (length l)) (seq 0 (length l)))).
Definition sign_of (k : nat) : Z := if Nat.even k then 1%Z else (-1)%Z.

(** composition: i -> sigma(tau(i)) *)
Definition compose (sigma tau : list nat) : list nat := map (fun i => nth i sigma 0) tau.
