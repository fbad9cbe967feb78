(** The point group of the square acting on on-site tensors A[s,u,l,d,r].

    The directions up, left, down, right are numbered 0,1,2,3 anticlockwise.  A symmetry is a
    rotation i -> i+k or a reflection i -> k-i of the directions modulo 4. *)
From Verif Require Import Base Tensor.
Open Scope list_scope.
Open Scope nat_scope.

Record sym := { refl : bool; shift : nat }.
Definition group : list sym :=
  [ {| refl := false; shift := 0 |}; {| refl := false; shift := 1 |}; {| refl := false; shift := 2 |}; {| refl := false; shift := 3 |};
    {| refl := true; shift := 0 |}; {| refl := true; shift := 1 |}; {| refl := true; shift := 2 |}; {| refl := true; shift := 3 |} ].
Definition sym_dir (g : sym) (i : nat) : nat :=
  if refl g then (shift g + 4 - i) mod 4 else (shift g + i) mod 4.

Inductive irrep := A1 | A2 | B1 | B2.
(** characters: true is +1, false is -1.  Reflections with even shift keep two opposite
    directions (left-right, up-down), those with odd shift are diagonal. *)
Definition chi (r : irrep) (g : sym) : bool :=
  match r with
  | A1 => true
  | A2 => negb (refl g)
  | B1 => Nat.even (shift g)
  | B2 => if refl g then Nat.odd (shift g) else Nat.even (shift g)
  end.

(** the bond indices seen after the symmetry: direction i carries the index of direction g(i) *)
Definition moved (g : sym) (x : list nat) : list nat := map (fun i => nth (sym_dir g i) x 0) [0; 1; 2; 3].

Section Spec.
Context {K : Type} (zero one : K) (add sub mul : K -> K -> K) (opp : K -> K) (half : K).
Definition el (A : tensor K) (s : nat) (x : list nat) : K := match tget A (s :: x) with Some v => v | None => zero end.
Definition sgn (b : bool) (v : K) : K := if b then v else opp v.

(** an on-site tensor with equal bond dimensions *)
Definition onsite (p D : nat) (A : tensor K) : Prop := twf A /\ tdims A = [p; D; D; D; D].
Definition bonds (D : nat) (x : list nat) : Prop := length x = 4 /\ Forall (fun i => i < D) x.

(** transforms with the characters of [r] *)
Definition transforms (r : irrep) (A : tensor K) : Prop :=
  forall p D, tdims A = [p; D; D; D; D] -> forall g s x, In g group -> s < p -> bonds D x ->
  el A s (moved g x) = sgn (chi r g) (el A s x).

(** (1/8) sum_g chi(g) g.A *)
Definition projection (r : irrep) (A : tensor K) (s : nat) (x : list nat) : K :=
  mul (mul half (mul half half)) (fold_right (fun g acc => add (sgn (chi r g) (el A s (moved g x))) acc) zero group).

Definition rname (r : irrep) : string := match r with A1 => "A1" | A2 => "A2" | B1 => "B1" | B2 => "B2" end.

(** the sum of [f r] over a list of irreps *)
Definition lsum (f : irrep -> K) (rs : list irrep) : K := fold_right (fun r acc => add (f r) acc) zero rs.
End Spec.

Definition irreps4 := [A1; A2; B1; B2].
(** the irrep is named in the list *)
Definition inb (l : list string) (r : irrep) : bool := if in_dec string_dec (rname r) l then true else false.
Definition known (l : list string) : Prop := forall i, In i l -> exists r, i = rname r.

(** iteration over a set: every element once *)
Definition set_order (f : list string -> list string) : Prop := forall l, NoDup (f l) /\ forall s, In s (f l) <-> In s l.
