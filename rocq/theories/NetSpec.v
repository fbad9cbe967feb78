(** What a contraction of a tensor network is.  A leg of a tensor is a bond, numbered, or several
    bonds fused into one index in row-major order.  Bonds that do not appear in the result are
    summed. *)
From Verif Require Import Base Tensor.
Open Scope list_scope.
Open Scope nat_scope.

(** [V l]: bond l; [F a b]: a and b fused, b running fastest *)
Inductive leg := V (l : nat) | F (a b : leg).
Fixpoint bonds (t : leg) : list nat := match t with V l => [l] | F a b => bonds a ++ bonds b end.

Section Spec.
Variable D : nat -> nat.                       (* dimension of a bond *)
Fixpoint ldim (t : leg) : nat := match t with V l => D l | F a b => ldim a * ldim b end.
(** value of a leg's index when bond l has index (s l) *)
Fixpoint lval (s : nat -> nat) (t : leg) : nat :=
  match t with V l => s l | F a b => lval s a * ldim b + lval s b end.

Context {K : Type} (z o : K) (add mul : K -> K -> K).
Definition sum_list (l : list K) : K := fold_right add z l.
Definition prod_list (l : list K) : K := fold_right mul o l.
Definition entry (t : tensor K) (ix : list nat) : K := match tget t ix with Some v => v | None => z end.

Definition upd (s : nat -> nat) (l i : nat) : nat -> nat := fun k => if k =? l then i else s k.
(** sum over all indices of the bonds [ls] *)
Fixpoint sum_over (ls : list nat) (G : (nat -> nat) -> K) (s : nat -> nat) : K :=
  match ls with
  | [] => G s
  | l :: ls' => sum_list (map (fun i => sum_over ls' G (upd s l i)) (seq 0 (D l)))
  end.

Definition network := list (tensor K * list leg).
Definition product (net : network) (s : nat -> nat) : K :=
  prod_list (map (fun f => entry (fst f) (map (lval s) (snd f))) net).
Definition net_bonds (net : network) : list nat := nodup Nat.eq_dec (flat_map (fun f => flat_map bonds (snd f)) net).
Definition inner (net : network) (out : list leg) : list nat :=
  filter (fun l => if in_dec Nat.eq_dec l (flat_map bonds out) then false else true) (net_bonds net).

(** [M] is the contraction of the network [net] with the legs [out] *)
Definition is_contraction (net : network) (out : list leg) (M : tensor K) : Prop :=
  twf M /\ tdims M = map ldim out /\
  forall s, (forall l, In l (flat_map bonds out) -> s l < D l) ->
    tget M (map (lval s) out) = Some (sum_over (inner net out) (product net) s).
End Spec.
