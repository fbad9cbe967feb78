(** What a file of a linear-combination state should hold. *)
From Verif Require Import Base Tensor TensorIO TensorIOSpec Lattice LcIO.
Open Scope nat_scope.
Open Scope list_scope.

Section S.
Context {R : Type}.
Variable zero : R.

(** a real elementary tensor of a site: a physical index and four auxiliary ones of one size *)
Definition square (t : ten R) : Prop :=
  exists T p a, t = TReal T /\ tdims T = [p; a; a; a; a] /\ twf T.
(** a real elementary tensor of a bond *)
Definition square2 (t : ten R) : Prop :=
  exists T a, t = TReal T /\ tdims T = [a; a] /\ twf T.
(** a real coefficient vector *)
Definition vector (c : ten R) : Prop := exists n l, c = TReal (mkT [n] l) /\ length l = n.

(** the same elementary tensors; of their descriptions the part under "meta" *)
Definition same_elem (l l' : list (lmeta * ten R)) : Prop :=
  map (fun mt => (m_meta (fst mt), snd mt)) l = map (fun mt => (m_meta (fst mt), snd mt)) l'.

(** the auxiliary indices of [t'] are those of [t] in the order [aux]: index k of [t'] is index
    [aux[k]] of [t] *)
Definition reordered {K} (aux : list nat) (t t' : tensor K) : Prop :=
  twf t' /\ tdims t' = hd 0 (tdims t) :: map (fun k => nth k (tl (tdims t)) 0) aux /\
  forall i js, length js = length aux -> tget t' (i :: map (fun k => nth k js 0) aux) = tget t (i :: js).
Definition reordered_ten (aux : list nat) (t t' : ten R) : Prop :=
  match t, t' with
  | TReal t, TReal t' => reordered aux t t'
  | TCplx t, TCplx t' => reordered aux t t'
  | _, _ => False
  end.

(** [t'] is [t] with all auxiliary indices brought to size [a], missing elements zero *)
Definition enlarged (a : nat) (t t' : tensor R) : Prop :=
  twf t' /\ tdims t' = hd 0 (tdims t) :: repeat a (length (tdims t) - 1) /\
  forall ix, addresses (tdims t') ix ->
    tget t' ix = match tget t ix with Some v => Some v | None => Some zero end.

(** some element of a complex tensor is not zero *)
Definition has_complex_entry (t : ten R) : Prop :=
  match t with
  | TReal _ => False
  | TCplx t => exists ix v, tget t ix = Some v /\ v <> (zero, zero)
  end.
End S.

(** * The on-site tensor *)
Section T.
Context {R : Type}.
Variables zero : R.
Variables add mul : R -> R -> R.
Variable opp : R -> R.

(** elementary tensors of one irrep, in their order *)
Definition of_irrep (p : string) (elem : list (lmeta * ten R)) : list (ten R) :=
  map snd (filter (fun mt => eqb (dget (m_meta (fst mt)) "pg"%string) (Some p)) elem).

(** element of a tensor as real and imaginary part *)
Definition value (t : ten R) (ix : list nat) : option (R * R) :=
  match t with
  | TReal t => match tget t ix with Some v => Some (v, zero) | None => None end
  | TCplx t => tget t ix
  end.

(** sum over i of l_i e_i[ix] for real tensors e_i *)
Definition weighted (l : list R) (es : list (ten R)) (ix : list nat) : R :=
  fold_right add zero (map (fun ce =>
    mul (fst ce) (match value (snd ce) ix with Some v => fst v | None => zero end)) (combine l es)).

(** rotation of the four auxiliary indices and exchange of left and right *)
Definition rotated (ix : list nat) : list nat :=
  match ix with [s; u; l; d; r] => [s; r; u; l; d] | _ => ix end.
Definition mirrored (ix : list nat) : list nat :=
  match ix with [s; u; l; d; r] => [s; u; r; d; l] | _ => ix end.

Definition neg (v : R * R) : R * R := (opp (fst v), opp (snd v)).
Definition conjugate (v : R * R) : R * R := (fst v, opp (snd v)).

(** invariant under the rotation, and under the reflection up to [f] *)
Definition symmetric (f : R * R -> R * R) (t : ten R) : Prop :=
  forall ix, addresses (ten_shape t) ix ->
    value t (rotated ix) = value t ix /\ value t (mirrored ix) = option_map f (value t ix).
End T.
