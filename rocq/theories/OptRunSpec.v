(** Specification of the optimization drivers: which evaluation the best-state file holds, what
    a checkpoint holds, which history a resumed optimizer has. *)
From Verif Require Import Base Flt Lbfgs LbfgsSpec OptRun.
Open Scope list_scope.

Section Spec.
Context {F : Type} (o : fops F).
Notation params := (list (list F)).
Notation ev := (bool * params * F)%type.
Definition e_loss (c : ev) : F := snd c.
Definition e_point (c : ev) : params := snd (fst c).
(** evaluations outside line searches *)
Definition starts_of (l : list ev) : list ev := filter (fun c => negb (fst (fst c))) l.

(** what is asked of the comparison; it holds for reals, and for floating point numbers with
    infinities and not-a-number *)
Definition comparison : Prop :=
  (forall a, flt o a a = false) /\
  (forall a b c, flt o a b = true -> flt o b c = true -> flt o a c = true) /\
  (forall a b c d, flt o a b = true -> flt o c d = true -> flt o c b = false -> flt o a c = true).

(** [file] holds the first of the evaluations with the smallest loss below [m]; it is unchanged
    when no loss is below [m] *)
Definition holds_best (m : F) (l : list ev) (file0 file : option params) : Prop :=
  Forall (fun c => flt o (e_loss c) m = false) l /\ file = file0 \/
  exists l1 c l2, l = l1 ++ c :: l2 /\ file = Some (e_point c) /\ flt o (e_loss c) m = true /\
    Forall (fun b => flt o (e_loss c) (e_loss b) = true \/ flt o (e_loss b) m = false) l1 /\
    Forall (fun b => flt o (e_loss b) (e_loss c) = false) l2.

(** [file] holds one of the evaluations, and no evaluation outside line searches is better *)
Definition holds_as_good (m : F) (l : list ev) (file0 file : option params) : Prop :=
  Forall (fun c => flt o (e_loss c) m = false) l /\ file = file0 \/
  exists c, In c l /\ file = Some (e_point c) /\ flt o (e_loss c) m = true /\
    Forall (fun b => flt o (e_loss b) (e_loss c) = false) (starts_of l).

(** one list is a prefix of the other *)
Definition prefix_related {A} (a b : list A) : Prop := (exists c, b = a ++ c) \/ (exists c, a = b ++ c).
End Spec.

(** closures that compute fixed functions of the parameters *)
Definition pure_loss {F E} (loss_fn : bool -> list (list F) -> @tdata F -> E -> E * (exn + F)) (f : list (list F) -> F) : Prop :=
  forall ls x t e, snd (loss_fn ls x t e) = inr (f x).
Definition pure_grad {F E} (gradient : list (list F) -> F -> E -> E * (exn + list F)) (df : list (list F) -> list F) : Prop :=
  forall x l e, snd (gradient x l e) = inr (df x).
Definition pure_post {F E} (post : option (list (list F) -> E -> E * (exn + list (list F)))) (h : list (list F) -> list (list F)) : Prop :=
  match post with None => forall x, h x = x | Some p => forall x e, snd (p x e) = inr (h x) end.
(** every recorded loss was returned by the loss function for the recorded point, and the loss
    history t_data["loss"] consists of those outside line searches *)
Definition recorded {F E} (loss_fn : bool -> list (list F) -> @tdata F -> E -> E * (exn + F)) (w : @world F E) : Prop :=
  Forall (fun c => exists t e, snd (loss_fn (fst (fst c)) (e_point c) t e) = inr (e_loss c)) (w_evals w) /\
  t_loss (w_t w) = map e_loss (starts_of (w_evals w)).
