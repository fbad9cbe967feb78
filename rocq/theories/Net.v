(** Tensor network primitives used by the modelled code: torch.einsum, torch.tensordot (which
    tn_interface.py:3-25 wraps as [contract]), [view]/[reshape], [size].
    No proofs here.

    Simplifications: broadcasting of dimensions of size one inside einsum is an error here; a
    tensor is always contiguous, so [contiguous] is the identity and [view] never fails because
    of strides (the code calls [contiguous] after each permute it wants to view). *)
From Verif Require Import Base Tensor.
Open Scope list_scope.
Open Scope nat_scope.
Open Scope res_scope.

Definition memb (k : nat) (l : list nat) : bool := existsb (Nat.eqb k) l.
Fixpoint nodupb (l : list nat) : bool :=
  match l with [] => true | a :: l' => negb (memb a l') && nodupb l' end.
(** distinct elements in the order of their last occurrence *)
Fixpoint distinct (l : list nat) : list nat :=
  match l with [] => [] | a :: l' => if memb a l' then distinct l' else a :: distinct l' end.
Definition assoc (d : list (nat * nat)) (k : nat) : nat := match dget d k with Some v => v | None => 0 end.

Section Net.
Context {K : Type} (z o : K) (add mul : K -> K -> K).
Definition nsum (l : list K) : K := fold_right add z l.
Definition nprod (l : list K) : K := fold_right mul o l.
Definition tel (t : tensor K) (ix : list nat) : K := match tget t ix with Some v => v | None => z end.

(** [torch.einsum(T0, labels0, T1, labels1, ..., out)] *)
Definition label_dims (ops : list (tensor K * list nat)) : list (nat * nat) :=
  flat_map (fun op => combine (snd op) (tdims (fst op))) ops.
Definition summed (ops : list (tensor K * list nat)) (out : list nat) : list nat :=
  filter (fun l => negb (memb l out)) (distinct (flat_map snd ops)).
Definition einsum (ops : list (tensor K * list nat)) (out : list nat) : res (tensor K) :=
  let dl := label_dims ops in
  if forallb (fun op => length (snd op) =? length (tdims (fst op))) ops
     && forallb (fun ld => snd ld =? assoc dl (fst ld)) dl
     && nodupb out && forallb (fun l => memb l (flat_map snd ops)) out
  then
    let sm := summed ops out in
    Ok (tbuild (map (assoc dl) out) (fun ix =>
      nsum (map (fun jx => let s := assoc (combine (out ++ sm) (ix ++ jx)) in
                 nprod (map (fun op => tel (fst op) (map s (snd op))) ops))
             (indices (map (assoc dl) sm)))))
  else Err RuntimeError.

(** [torch.tensordot(A, B, (ia, ib))]: the free indices of A, then those of B *)
Definition dot_labels (ra : nat) (ia ib : list nat) (rb : nat) : list nat :=
  map (fun k => if memb k ib then nth (pos k ib) ia 0 else ra + k) (seq 0 rb).
Definition dot_out (ra : nat) (ia ib : list nat) (rb : nat) : list nat :=
  filter (fun k => negb (memb k ia)) (seq 0 ra) ++
  map (fun k => ra + k) (filter (fun k => negb (memb k ib)) (seq 0 rb)).
Definition tensordot (A B : tensor K) (ia ib : list nat) : res (tensor K) :=
  let ra := length (tdims A) in let rb := length (tdims B) in
  if (length ia =? length ib) && nodupb ia && nodupb ib
     && forallb (fun k => k <? ra) ia && forallb (fun k => k <? rb) ib
  then einsum [(A, seq 0 ra); (B, dot_labels ra ia ib rb)] (dot_out ra ia ib rb)
  else Err RuntimeError.

(** [t.size(k)] *)
Definition size (t : tensor K) (k : nat) : nat := nth k (tdims t) 0.
(** [t.view(dims)], [t.reshape(dims)] with all sizes given *)
Definition view (t : tensor K) (dims : list nat) : res (tensor K) :=
  match treshape (tdata t) dims with Ok t' => Ok t' | Err _ => Err RuntimeError end.
(** [t.view(d1,...,dk,-1)]; a vanishing product of the given sizes is ambiguous *)
Definition view_rest (t : tensor K) (dims : list nat) : res (tensor K) :=
  if (prod_dims dims =? 0) || negb (length (tdata t) mod prod_dims dims =? 0) then Err RuntimeError
  else Ok (mkT (dims ++ [length (tdata t) / prod_dims dims]) (tdata t)).
(** [t.permute(p)] *)
Definition permute (t : tensor K) (p : list nat) : res (tensor K) := tpermute z t p.
End Net.
