(** Specification: spins of a periodic kagome lattice, its triangles, the sum of a local operator over them, density matrices. *)
From Verif Require Import Base Tensor PlaqSpec Su3Spec.
Open Scope list_scope.
Open Scope Z_scope.

(** spin s = 0, 1, 2 of the cell c; L x M cells are a lattice of 3L x M spins *)
Definition spin (s : Z) (c : coord) : coord := (3 * fst c + s, snd c).
(** the spins of a cell form a down triangle; spin 0 of a cell, spin 1 of the cell above (y - 1) and spin 2 of the cell to the left (x - 1) an up triangle.
    [tri_up c] is the one in the middle of the cells c, c + (1,0), c + (0,1), c + (1,1) *)
Definition tri_dn (c : coord) : list coord := [spin 0 c; spin 1 c; spin 2 c].
Definition tri_up (c : coord) : list coord := [spin 0 (pxy c); spin 1 (px c); spin 2 (py c)].

Section Spec.
Context {K : Type} (k0 k1 : K) (kadd kmul : K -> K -> K).
Variables (L M : Z) (d : nat).
(** sum over all triangles *)
Definition triangles (O : @local K) : operator :=
  osum k0 kadd (sites L M) (fun c => oadd kadd (on k0 (3 * L) M (tri_dn c) O) (on k0 (3 * L) M (tri_up c) O)).
Variable E : @operator K -> K.
(** the unit operator has expectation value one *)
Definition one : operator := fun s s' => if forallb (fun p => Nat.eqb (s p) (s' p)) (sites (3 * L) M) then k1 else k0.
Definition normalised : Prop := E one = k1.
(** [r] has the indices |ket> <bra| of the spins [ps]: E O = Tr (r O) *)
Definition density (n : nat) (ps : list coord) (r : tensor K) : Prop :=
  tdims r = repeat d (2 * n) /\ twf r /\ forall O : local, E (on k0 (3 * L) M ps O) =
    fold_right kadd k0 (map (fun ix => kmul (match tget r ix with Some v => v | None => k0 end) (O (skipn n ix) (firstn n ix))) (indices (repeat d (2 * n)))).
(** equivalent cells see the same state *)
Definition same_cells (v2s : coord -> coord) : Prop := forall p ps O, In p (sites L M) ->
  E (on k0 (3 * L) M (map (cadd (3 * (fst p - fst (v2s p)), snd p - snd (v2s p))) ps) O) = E (on k0 (3 * L) M ps O).
(** invariance of an operator on a triangle under rotation of its spins *)
Definition cyclic (O : @local K) : Prop := forall x y w x' y' w' : nat, (x < d)%nat -> (y < d)%nat -> (w < d)%nat -> (x' < d)%nat -> (y' < d)%nat -> (w' < d)%nat ->
  O [y; w; x] [y'; w'; x'] = O [x; y; w] [x'; y'; w'].
Definition transposed (O : @local K) : local := fun i a => O a i.
(** an operator on a triangle stored as a matrix or with six indices *)
Definition stored (op : tensor K) : local := loc4 k0 (mkT (repeat d 6) (tdata op)).
Definition is_op (op : tensor K) : Prop := twf op /\ (tdims op = repeat d 6 \/ tdims op = [d * (d * d); d * (d * d)]%nat).
End Spec.
