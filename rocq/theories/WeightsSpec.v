(** Bonds of the square lattice. *)
From Verif Require Import Base Lattice Tensor CtmSpec.
Open Scope Z_scope.
Open Scope list_scope.

(** up, left, down, right *)
Definition four : list coord := [(0, -1); (-1, 0); (0, 1); (1, 0)].
(** a bond by its left or upper end: [true] for a bond downwards, [false] for one to the right *)
Definition bond := (coord * bool)%type.
Definition bond_of (v d : coord) : bond :=
  if eqb d (0, -1) then ((fst v, snd v - 1), true)
  else if eqb d (-1, 0) then ((fst v - 1, snd v), false)
  else if eqb d (0, 1) then (v, true) else (v, false).
Definition inside (ps : list coord) (v : coord) : bool := if in_dec eq_dec v ps then true else false.
(** bonds between two vertices of [ps], each listed once, and bonds with one end in [ps] *)
Definition inner_bonds (ps : list coord) : list (coord * coord) :=
  filter (fun vd => inside ps (cadd (fst vd) (snd vd))) (flat_map (fun v => [(v, (0, 1)); (v, (1, 0))]) ps).
Definition outer_bonds (ps : list coord) : list (coord * coord) :=
  filter (fun vd => negb (inside ps (cadd (fst vd) (snd vd)))) (flat_map (fun v => map (fun d => (v, d)) four) ps).

(** a state whose map from vertices to sites is a tiling *)
Definition is_state {X} (st : ipeps X) (sites : dict coord X) (f : coord -> coord) : Prop :=
  i_sites st = Some sites /\ (forall v, i_v2s st v = Ok (f v)) /\ tiling_ok f sites.
(** position of the index of a site tensor in direction d *)
Definition leg_of (d : coord) : nat := if eqb d (0, -1) then 1 else if eqb d (-1, 0) then 2 else if eqb d (0, 1) then 3 else 4%nat.

Section Spec.
Context {K : Type} (z o : K) (mul : K -> K -> K).
Definition times (l : list K) : K := fold_right mul o l.
(** entry of a tensor *)
Definition at_ (t : tensor K) (ix : list nat) : K := match tget t ix with Some x => x | None => z end.
(** the index of the site tensor at [v] when the bonds have the indices [s] and the physical
    index of [v] is [p v] *)
Definition index (s : bond -> nat) (p : coord -> nat) (v : coord) : list nat := p v :: map (fun d => s (bond_of v d)) four.
(** [W] is the diagonal matrix with the entries [x] *)
Definition is_diag (n : nat) (x : nat -> K) (W : tensor K) : Prop :=
  twf W /\ tdims W = [n; n] /\ forall i j, (i < n)%nat -> (j < n)%nat -> tget W [i; j] = Some (if Nat.eqb i j then x i else z).
Definition id_matrix (n : nat) (W : tensor K) : Prop := is_diag n (fun _ => o) W.
(** the two ends of every bond have the same dimension *)
Definition bonds_match (st : ipeps (tensor K)) : Prop :=
  forall v d A B, In d four -> ipeps_site st v = Ok A -> ipeps_site st (cadd v d) = Ok B ->
    nth_error (tdims A) (leg_of d) = nth_error (tdims B) (leg_of (cneg d)).
Definition rank5 (st : ipeps (tensor K)) : Prop := forall v A, ipeps_site st v = Ok A -> length (tdims A) = 5%nat.
End Spec.
