(** Dense tensors in row-major layout and the numpy/torch primitives used by the
    modelled code: [zeros], indexing, item assignment, [permute], [reshape].
    No proofs here. *)
From Verif Require Import Base.
Open Scope nat_scope.
Open Scope res_scope.

(** all index tuples of a shape in row-major order:
    [itertools.product( *(range(i) for i in shape))] *)
Fixpoint indices (dims : list nat) : list (list nat) :=
  match dims with
  | [] => [[]]
  | d :: ds => flat_map (fun i => map (cons i) (indices ds)) (seq 0 d)
  end.

Definition prod_dims (dims : list nat) : nat := fold_right Nat.mul 1 dims.

(** [is_perm p r]: [p] lists 0..r-1, each once *)
Definition is_permb (p : list nat) (r : nat) : bool :=
  (length p =? r) && forallb (fun k => existsb (Nat.eqb k) p) (seq 0 r).

(** position of the first occurrence *)
Fixpoint pos (k : nat) (p : list nat) : nat :=
  match p with [] => 0 | a :: p' => if a =? k then 0 else S (pos k p') end.

(** the index of the unpermuted tensor addressed by index [ix] of the permuted one *)
Definition unperm (p : list nat) (ix : list nat) : list nat :=
  map (fun j => nth (pos j p) ix 0) (seq 0 (length p)).

Section Tensor.
Context {K : Type}.

(** shape and elements in row-major order *)
Record tensor : Type := mkT { tdims : list nat; tdata : list K }.

Definition twf (t : tensor) : Prop := length (tdata t) = prod_dims (tdims t).

Definition telts (t : tensor) : dict (list nat) K := combine (indices (tdims t)) (tdata t).

(** [t[ix]] for a full in-range tuple of non-negative indices *)
Definition tget (t : tensor) (ix : list nat) : option K := dget (telts t) ix.

Definition tbuild (dims : list nat) (f : list nat -> K) : tensor :=
  mkT dims (map f (indices dims)).

(** [zeros(dims)] *)
Definition tzeros (z : K) (dims : list nat) : tensor := tbuild dims (fun _ => z).

(** Python index [i] into a dimension of size [d]: negative indices count from the
    end, out of range raises IndexError *)
Definition norm_index (d : nat) (i : Z) : res nat :=
  if ((0 <=? i) && (i <? Z.of_nat d))%Z then Ok (Z.to_nat i)
  else if ((- Z.of_nat d <=? i) && (i <? 0))%Z then Ok (Z.to_nat (i + Z.of_nat d))
  else Err IndexError.

(** an index tuple may be shorter than the rank (it then addresses a sub-tensor), a
    longer one raises IndexError *)
Fixpoint norm_indices (dims : list nat) (ix : list Z) : res (list nat) :=
  match ix, dims with
  | [], _ => Ok []
  | i :: ix', d :: ds =>
      k <- norm_index d i ;; ks <- norm_indices ds ix' ;; Ok (k :: ks)
  | _ :: _, [] => Err IndexError
  end.

Fixpoint is_prefix (p l : list nat) : bool :=
  match p, l with
  | [], _ => true
  | a :: p', b :: l' => (a =? b) && is_prefix p' l'
  | _ :: _, [] => false
  end.

(** [X[ix] = f(X[ix])] elementwise: assignment is [fun _ => v], [+= v] is
    [fun x => x + v]; a short tuple broadcasts over the addressed sub-tensor *)
Definition tupdate (t : tensor) (ix : list Z) (f : K -> K) : res tensor :=
  p <- norm_indices (tdims t) ix ;;
  Ok (mkT (tdims t)
          (map (fun e => if is_prefix p (fst e) then f (snd e) else snd e) (telts t))).

(** [raw.reshape(dims)] of a 1D array (non-negative [dims]) *)
Definition treshape (raw : list K) (dims : list nat) : res tensor :=
  if length raw =? prod_dims dims then Ok (mkT dims raw) else Err ValueError.

(** [t.permute(p)]: index [k] of the result is index [p[k]] of [t].  [z] is never
    used for a well-formed tensor (it fills positions that do not exist). *)
Definition tpermute (z : K) (t : tensor) (p : list nat) : res tensor :=
  if is_permb p (length (tdims t)) then
    Ok (tbuild (map (fun k => nth k (tdims t) 0) p)
               (fun ix => match tget t (unperm p ix) with Some v => v | None => z end))
  else Err RuntimeError.
End Tensor.
Arguments tensor K : clear implicits.

(** elementwise map, e.g. promotion [t + 0.j] or division by a scalar *)
Definition tmap {A B} (f : A -> B) (t : tensor A) : tensor B := mkT (tdims t) (map f (tdata t)).
