(** Model of the finite-difference gradient, optim/fd_optim_lbfgs_mod.py:116-146.

    [state.coeffs] is the list of the coefficient tensors in the order of the dictionary.  The
    loss function is an oracle that sees the coefficients and an arbitrary world, may change the
    world and may raise.  Not modelled: the copies of the configuration passed to the loss, the
    cloned environment handed to every evaluation (part of the oracle), logging. *)
From Verif Require Import Base Flt Lbfgs.
Open Scope st_scope.
Open Scope list_scope.

Section Fd.
Context {F : Type} (o : fops F) {W : Type}.
Variable loss_fn : list (list F) -> W -> W * (exn + F).
Variables (eps : F) (loss0 : F).

Record fst_ := { f_x : list (list F); f_w : W }.

Definition getk (k : nat) : M fst_ (list F) := fun s => (s, match getitem (f_x s) k with Ok v => inr v | Err e => inl (Py e) end).
Definition putk (k : nat) (v : list F) : M fst_ unit := fun s =>
  match setitem (f_x s) k v with
  | Ok x => ({| f_x := x; f_w := f_w s |}, inr tt)
  | Err e => (s, inl (Py e))
  end.
Definition eval_loss : M fst_ F := fun s =>
  let (w, r) := loss_fn (f_x s) (f_w s) in ({| f_x := f_x s; f_w := w |}, r).

(** a vector of zeros with eps at i *)
Definition e_ (n i : nat) : list F := map (fun j => if Nat.eqb j i then eps else fq o 0 1) (seq 0 n).

(** the loop over the components i = i0, ..., i0+m-1 of coefficient k; [g] is fd_grad[k] *)
Fixpoint fd_comp (k : nat) (orig : list F) (m i0 : nat) (g : list F) : M fst_ (list F) :=
  match m with
  | O => ret g
  | S m' =>
      v <-- getk k ;;
      _ <-- putk k (vadd o v (e_ (length orig) i0)) ;;
      loss1 <-- eval_loss ;;
      g <-- lift (setitem g i0 (fdiv o (fsub o loss1 loss0) eps)) ;;
      _ <-- putk k orig ;;
      fd_comp k orig m' (S i0) g
  end.

(** the loop over the coefficients k = k0, ..., k0+m-1 *)
Fixpoint fd_loop (m k0 : nat) : M fst_ (list (list F)) :=
  match m with
  | O => ret []
  | S m' =>
      orig <-- getk k0 ;;
      g <-- fd_comp k0 orig (length orig) 0 (repeat (fq o 0 1) (length orig)) ;;
      rest <-- fd_loop m' (S k0) ;;
      ret (g :: rest)
  end.

Definition grad_fd : M fst_ (list (list F)) := fun s => fd_loop (length (f_x s)) 0 s.
End Fd.
Arguments f_x {F W}. Arguments f_w {F W}.
