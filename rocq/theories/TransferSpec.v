(** Transfer operators drawn in ctm/generic/transferops.py and ctm/one_site_c4v/transferops_c4v.py, and what the
    leading part of a spectrum is. *)
From Coq Require Import Reals.
From Verif Require Import Base Lattice Tensor NetSpec CornersSpec RdmSpec CorrSpec CorrC4vSpec.
From Coq Require Import Permutation.
Open Scope list_scope.
Open Scope nat_scope.

(** ** eigenvalues *)
Definition modulus (c : R * R) : R := sqrt (fst c ^ 2 + snd c ^ 2).
Definition over (m : R) (c : R * R) : R * R := (fst c / m, snd c / m)%R.
(** m is the largest modulus of the values *)
Definition leading (m : R) (vals : list (R * R)) : Prop :=
  (exists v, In v vals /\ modulus v = m) /\ forall v, In v vals -> (modulus v <= m)%R.
Definition descending (l : list (R * R)) : Prop :=
  forall i j, i <= j < length l -> (modulus (nth j l (0, 0)%R) <= modulus (nth i l (0, 0)%R))%R.
Definition ascending (l : list (R * R)) : Prop :=
  forall i j, i <= j < length l -> (modulus (nth i l (0, 0)%R) <= modulus (nth j l (0, 0)%R))%R.
(** numpy.argsort *)
Definition is_argsort (f : list R -> list nat) : Prop :=
  forall l, Permutation (f l) (seq 0 (length l)) /\
  forall i j, i <= j < length l -> (nth (nth i (f l) 0%nat) l 0 <= nth (nth j (f l) 0%nat) l 0)%R.
(** the values vals in units of m, with their vectors *)
Definition sorted_pairs {W} (m : R) (vals : list (R * R)) (vecs : list W) (L : list (R * R)) (X : list W) : Prop :=
  descending L /\ length L = length X /\
  Permutation (combine L X) (map (fun p => (over m (fst p), snd p)) (combine vals vecs)).
Definition sorted_values (m : R) (vals L : list (R * R)) : Prop :=
  descending L /\ Permutation L (map (over m) vals).

(** scipy's eigs: whether vectors are wanted, size and operator, number of values; values and vectors *)
Definition eigen_solver (K W : Type) : Type := bool -> nat -> (list K -> res (list K)) -> nat -> res (list (R * R) * list W).

(** ** operators *)
Fixpoint iterate {X} (k : nat) (f : X -> res X) (x : X) : res X :=
  match k with 0 => Ok x | S k' => bind (iterate k' f x) f end.
(** the operator f on vectors joins its argument, as a tensor with the legs inn, with the network; the entries of the
    result are those of the tensor with the legs out, both in row-major order *)
Definition applies {K} (D : nat -> nat) (z o : K) add mul (f : list K -> res (list K)) (inn : list leg) (net : network) (out : list leg) : Prop :=
  forall x, length x = prod_dims (map (ldim D) inn) ->
  exists M, f x = Ok (tdata M) /\ is_contraction D z o add mul ((mkT (map (ldim D) inn) x, inn) :: net) out M.
(** the map from vertices to sites repeats after n steps *)
Definition repeats {T} (st : ipeps T) (c : coord) (d : dir) (n : nat) : Prop :=
  forall i, i_v2s st (along c d (i + n)) = i_v2s st (along c d i).
(** the vertex and its site have the same neighbours *)
Definition reduces {T} (st : ipeps T) : Prop :=
  forall v k d, i_v2s st v = Ok k -> i_v2s st (cadd k d) = i_v2s st (cadd v d).
Definition cell_length {T} (st : ipeps T) (d : dir) : nat :=
  Z.to_nat (match d with Left | Right => i_lX st | Up | Down => i_lY st end).
(** the bonds after every n-th site have the dimensions of the first bonds *)
Definition same_rims (D : nat -> nat) (n : nat) : Prop := forall k j, j < 4 -> D (base (k * n) + j) = D (base 0 + j).

Section Nets.
Context {K : Type}.
Variables (cj : K -> K) (As : coord -> tensor K) (Ts : coord -> coord -> tensor K).
(** n sites and their environment: from the bonds [rim (base 0)] to the bonds [rim (base n)] *)
Definition channel (d : dir) (c : coord) (n : nat) : network :=
  flat_map (fun i => col_net cj As Ts d (along c d i) (base i) false) (seq 0 n).
(** no site: the line between the vertex v and its neighbour above, or on its left *)
Definition rim0 (b : nat) : list leg := [V b; V (b + 3)].
Definition seam_side (d : dir) : coord := match d with Left | Right => (0, -1) | Up | Down => (-1, 0) end%Z.
Definition seam_net (d : dir) (v : coord) (b : nat) : network :=
  let p := match d with Right | Down => b | _ => b + 16 end in
  let q := match d with Right | Down => b + 16 | _ => b end in
  match d with
  | Left | Right => [(Ts v (0, -1)%Z, [V p; V (b + 4); V q]); (Ts (cadd v (0, -1)%Z) (0, 1)%Z, [V (b + 4); V (p + 3); V (q + 3)])]
  | Up | Down => [(Ts v (-1, 0)%Z, [V p; V q; V (b + 4)]); (Ts (cadd v (-1, 0)%Z) (1, 0)%Z, [V (p + 3); V (b + 4); V (q + 3)])]
  end.
Definition seam (d : dir) (c : coord) (n : nat) : network :=
  flat_map (fun i => seam_net d (along c d i) (base i)) (seq 0 n).
End Nets.
(** n columns of h sites of the C4v state *)
Definition channel_c4v {K} (cj : K -> K) (T a : tensor K) (h n : nat) : network :=
  flat_map (fun i => column cj T a h (at_col i) false) (seq 0 n).
