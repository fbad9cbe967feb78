(** Specification: the loss and gradient with which an optimization step starts are those of the
    parameters it starts from. *)
From Verif Require Import Base Flt Lbfgs OptRun OptRunSpec.
Open Scope list_scope.

Section Spec.
Context {F E : Type}.
Notation params := (list (list F)).
(** loss and gradient are functions of the parameters, or fail with an exception other than
    EnvError *)
Definition answers_loss (loss_fn : bool -> params -> @tdata F -> E -> E * (exn + F)) (f : params -> F) : Prop :=
  forall ls x t e, snd (loss_fn ls x t e) = inr (f x) \/ exists ex, snd (loss_fn ls x t e) = inl ex /\ ex <> EnvErr.
Definition answers_grad (gradient : params -> F -> E -> E * (exn + list F)) (df : params -> list F) : Prop :=
  forall x l e, snd (gradient x l e) = inr (df x) \/ exists ex, snd (gradient x l e) = inl ex /\ ex <> EnvErr.
(** post-processing that does not change the parameters *)
Definition keeps_params (post : option (params -> E -> E * (exn + params))) : Prop :=
  forall p, post = Some p -> forall x e y, snd (p x e) = inr y -> y = x.
(** a line search which returns one of the points it has evaluated *)
Definition strict (wolfe : F -> list F -> F -> list F -> F -> list (F * F * list F) -> F + (F * list F * F * Z)) : Prop :=
  forall t d loss g gtd seen l v t' n, wolfe t d loss g gtd seen = inr (l, v, t', n) -> In (t', l, v) seen.
(** the same, or its start *)
Definition honest (zero : F) (wolfe : F -> list F -> F -> list F -> F -> list (F * F * list F) -> F + (F * list F * F * Z)) : Prop :=
  forall t d loss g gtd seen l v t' n, wolfe t d loss g gtd seen = inr (l, v, t', n) -> In (t', l, v) ((zero, loss, g) :: seen).

(** two successive checkpoints: the optimizer was started anew; or nothing changed; or the step
    between them started from the loss and gradient of the first one's parameters *)
Definition current (g : grp F) (f : params -> F) (df : params -> list F) (c c' : params * opt F) : Prop :=
  snd c' = opt0 g \/ c' = c \/
  (m_pg (o_mem (snd c')) = Some (df (fst c)) /\ m_pl (o_mem (snd c')) = Some (f (fst c))).
(** successive elements of a list are related *)
Definition successive {A} (R : A -> A -> Prop) (l : list A) : Prop :=
  forall l1 a b l2, l = l1 ++ a :: b :: l2 -> R a b.
(** the losses of the evaluations made from [w] to [w'] are appended to the histories: those inside
    line searches to t_data["loss_ls"], the others to t_data["loss"] *)
Definition appends (w w' : @world F E) : Prop := exists new,
  w_evals w' = w_evals w ++ new /\ t_loss (w_t w') = t_loss (w_t w) ++ map e_loss (starts_of new) /\
  t_ls (w_t w') = t_ls (w_t w) ++ map e_loss (filter (fun c => fst (fst c)) new).
End Spec.
