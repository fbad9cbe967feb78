(** Which indices may be unrolled. *)
From Verif Require Import Base.
Open Scope list_scope.

(** [u] occurs in two of the groups *)
Definition in_two (u : nat) (groups : list (list nat)) : Prop :=
  exists g1 a g2 b g3, groups = g1 ++ a :: g2 ++ b :: g3 /\ In u a /\ In u b.
