(** C4v orbits of bond indices and bases of symmetric tensors, in terms of the symmetry group of
    C4vSpec.v. *)
From Verif Require Import Base Tensor C4vSpec.
Open Scope list_scope.
Open Scope nat_scope.

(** [o] consists of the images of [x] under the eight symmetries *)
Definition orbit_of (o : list (list nat)) (x : list nat) : Prop :=
  forall y, In y o <-> exists g, In g group /\ y = moved g x.

(** the list of sets partitions the bond indices below [D] into orbits *)
Definition partition (D : nat) (ts : list (list (list nat))) : Prop :=
  (forall x, bonds D x -> exists! j, j < length ts /\ In x (nth j ts [])) /\
  (forall o, In o ts -> o <> [] /\ NoDup o /\ forall x, In x o -> bonds D x /\ orbit_of o x).

(** U(1) charge of an element: physical index [s] and bond indices [x]; charges of the [d]
    physical values come first *)
Definition charge (d : nat) (cs : list Z) (s : nat) (x : list nat) : Z :=
  (nth s cs 0 + fold_right (fun i acc => nth (d + i) cs 0 + acc) 0 x)%Z.
Definition allowed (d : nat) (cs : list Z) (tot : Z) (s : nat) (x : list nat) : Prop := charge d cs s x = tot.

(** value of a basis tensor *)
Definition bel (t : tensor Z) (s : nat) (x : list nat) : Z := el 0%Z t s x.

(** The tensors are 0/1 valued and C4v symmetric; they have disjoint non-empty supports, which
    cover exactly the elements selected by [ok] among the first [d] physical values. *)
Definition is_basis (D d : nat) (ok : nat -> list nat -> Prop) (b : list (tensor Z)) : Prop :=
  (forall t, In t b -> onsite 2 D t /\ transforms 0%Z Z.opp A1 t /\
     (forall s x, s < 2 -> bonds D x -> bel t s x = 0%Z \/ bel t s x = 1%Z /\ s < d /\ ok s x) /\
     exists s x, s < 2 /\ bonds D x /\ bel t s x = 1%Z) /\
  (forall s x, s < d -> bonds D x -> ok s x -> exists! j, j < length b /\ bel (nth j b (tzeros 0%Z [])) s x = 1%Z).

(** linear combination of basis tensors with coefficients in any type with zero and addition *)
Definition combination {K} (zero : K) (add : K -> K -> K) (c : list K) (b : list (tensor Z)) (s : nat) (x : list nat) : K :=
  fold_right (fun ct acc => add (if (bel (snd ct) s x =? 1)%Z then fst ct else zero) acc) zero (combine c b).

(** a C4v symmetric tensor that vanishes outside the selected elements *)
Definition symmetric_tensor {K} (zero : K) (opp : K -> K) (D d : nat) (ok : nat -> list nat -> Prop) (A : tensor K) : Prop :=
  onsite 2 D A /\ transforms zero opp A1 A /\
  forall s x, s < 2 -> bonds D x -> ~ (s < d /\ ok s x) -> el zero A s x = zero.

(** a choice of a member of a non-empty set *)
Definition picks (pick : list (list nat) -> option (list nat)) : Prop := forall o, o <> [] -> exists x, pick o = Some x /\ In x o.
