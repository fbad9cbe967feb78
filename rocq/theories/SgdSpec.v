(** Specification of SGD with momentum: the documented update. *)
From Verif Require Import Base Flt Lbfgs Sgd.
Open Scope list_scope.

Section Spec.
Context {F : Type} (o : fops F) (g : sgrp (F:=F)).
Definition uses_momentum : bool := nonzero o (sg_mom g).

(** gradient including weight decay *)
Definition decayed (x : list (list F)) (fg : list F) : list F :=
  if nonzero o (sg_wd g) then vaxpy o (sg_wd g) fg (concat x) else fg.
(** the momentum buffer after a step: momentum*buf + (1-dampening)*grad, or grad at first *)
Definition velocity (buf : option (list F)) (dg : list F) : option (list F) :=
  if uses_momentum then
    Some match buf with
         | None => dg
         | Some b => vaxpy o (fsub o (fq o 1 1) (sg_damp g)) (vscale o (sg_mom g) b) dg
         end
  else buf.
(** the momentum direction, given the buffer after the step *)
Definition momentum_direction (buf : option (list F)) (dg : list F) : list F :=
  match uses_momentum, buf with
  | true, Some v => if sg_nest g then vaxpy o (sg_mom g) dg v else v
  | _, _ => dg
  end.

(** n successful steps with the given gradients *)
Context {W : Type} (clo : list (list F) -> W -> W * (exn + F * list F)) (clo_ls : list (list F) -> W -> W * (exn + F)) (fuel : nat).
Inductive sruns : sst (F:=F) (W:=W) -> list (list F) -> sst (F:=F) (W:=W) -> Prop :=
| sruns_nil s : sruns s [] s
| sruns_cons s s1 s' loss w fg gs : clo (q_x s) (q_w s) = (w, inr (loss, fg)) -> sgd_step o clo clo_ls g fuel s = (s1, inr loss) ->
    sruns s1 gs s' -> sruns s (fg :: gs) s'.
End Spec.
