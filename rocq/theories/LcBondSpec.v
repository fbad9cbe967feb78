(** Specification of the second tensor of a state with a bond tensor [b]: the on-site tensor [A]
    with [b] on each of its four auxiliary indices.  Bond 0 is the physical index, bonds 1 to 4 are the
    auxiliary indices of the result, bonds 5 to 8 those of [A]. *)
From Verif Require Import Base Tensor NetSpec.
Open Scope nat_scope.
Open Scope list_scope.

Definition bD (p a : nat) (k : nat) : nat := match k with 0 => p | _ => a end.

Definition dressed {R} (b A : tensor R) : list (tensor R * list leg) :=
  [(b, [V 1; V 5]); (b, [V 2; V 6]); (b, [V 3; V 7]); (b, [V 4; V 8]); (A, [V 0; V 5; V 6; V 7; V 8])].
