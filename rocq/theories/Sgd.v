(** Model of the SGD optimizer with line search, optim/sgd_modified.py:116-236.

    [self._momentum_buffer] and the search direction [d_p] may be one tensor; in-place changes
    of [d_p] then change the buffer, which the model makes explicit with the flag [alias].
    [add_(alpha, other)] is torch's former overload: self + alpha*other.
    Not modelled: logging, sparse gradients. *)
From Verif Require Import Base Flt Armijo Lbfgs.
Open Scope st_scope.
Open Scope list_scope.

Section Sgd.
Context {F : Type} (o : fops F) {W : Type}.

(** self.param_groups[0] *)
Record sgrp := { sg_lr : F; sg_wd : F; sg_mom : F; sg_damp : F; sg_nest : bool; sg_ls : lsfn; sg_eps : F }.
Record sst := { q_x : list (list F); q_buf : option (list F); q_w : W }.

Variable clo : list (list F) -> W -> W * (exn + F * list F).   (* loss and flat gradient *)
Variable clo_ls : list (list F) -> W -> W * (exn + F).
Variable g : sgrp.
Variable fuel : nat.

Definition nonzero (x : F) : bool := negb (feq o x (fq o 0 1)).

Definition scall {A} (c : list (list F) -> W -> W * (exn + A)) : M sst A := fun s =>
  let (w, r) := c (q_x s) (q_w s) in ({| q_x := q_x s; q_buf := q_buf s; q_w := w |}, r).
Definition sget : M sst sst := fun s => (s, inr s).
Definition sput_x (x : list (list F)) : M sst unit := fun s => ({| q_x := x; q_buf := q_buf s; q_w := q_w s |}, inr tt).
Definition sput_buf (b : option (list F)) : M sst unit := fun s => ({| q_x := q_x s; q_buf := b; q_w := q_w s |}, inr tt).
Definition sadd (t : F) (d : list F) : M sst unit :=
  s <-- sget ;; x <-- lift (add_grad o t d (q_x s)) ;; sput_x x.
Definition sset (x : list (list F)) : M sst unit := s <-- sget ;; sput_x (set_param (q_x s) x).

(** sgd_modified.py:116-122 *)
Definition sdir_eval (x : list (list F)) (d : list F) (t : F) : M sst F :=
  _ <-- sadd t d ;; loss <-- scall clo_ls ;; _ <-- sset x ;; ret loss.

(** sgd_modified.py:189-204: [(d_p, d_p is self._momentum_buffer)] *)
Definition sgd_direction (fg : list F) : M sst (list F * bool) :=
  s <-- sget ;;
  let d := if nonzero (sg_wd g) then vaxpy o (sg_wd g) fg (concat (q_x s)) else fg in
  if nonzero (sg_mom g) then
    let buf := match q_buf s with
               | None => d
               | Some b => vaxpy o (fsub o (fq o 1 1) (sg_damp g)) (vscale o (sg_mom g) b) d
               end in
    _ <-- sput_buf (Some buf) ;;
    if sg_nest g then ret (vaxpy o (sg_mom g) d buf, false) else ret (buf, true)
  else ret (d, false).

(** [step_2c], sgd_modified.py:168-236 *)
Definition sgd_step : M sst F :=
  lg <-- scall clo ;;
  let loss := fst lg in
  let fg := snd lg in
  ' (d, alias) <-- sgd_direction fg ;;
  match sg_ls g with
  | LSnone | LSdefault => _ <-- sadd (fneg o (sg_lr g)) d ;; ret loss
  | LSbacktracking =>
      (* d_p.mul_(-1) *)
      let d := vscale o (fneg o (fq o 1 1)) d in
      _ <-- (if alias then sput_buf (Some d) else ret tt) ;;
      s <-- sget ;;
      let x := q_x s in
      let gtd := vdot o fg d in
      r <-- sgd_armijo o (sdir_eval x d) loss gtd (sg_eps g) fuel (sg_lr g) ;;
      match fst r with
      | Some t => _ <-- sadd t d ;; ret loss
      | None => raise (Py RuntimeError)
      end
  | _ => raise (Py RuntimeError)
  end.
End Sgd.
Arguments q_x {F W}. Arguments q_buf {F W}. Arguments q_w {F W}.
Arguments sg_lr {F}. Arguments sg_wd {F}. Arguments sg_mom {F}. Arguments sg_damp {F}. Arguments sg_nest {F}. Arguments sg_ls {F}. Arguments sg_eps {F}.
