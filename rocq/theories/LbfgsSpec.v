(** Specification of the L-BFGS optimizer: the stored history, and the inverse-Hessian
    approximation as an operator. *)
From Coq Require Import Reals.
From Verif Require Import Base Flt Lbfgs.
Open Scope list_scope.

(** the last n elements *)
Definition lastn {A} (n : nat) (l : list A) : list A := skipn (length l - n) l.

Section Hist.
Context {F : Type} (o : fops F).

(** a pair (y, s) is accepted when y.s > 1e-10 *)
Definition acceptable (p : list F * list F) : Prop := flt o (fq o 1 10000000000) (vdot o (fst p) (snd p)) = true.

(** the three lists hold the newest [h] of the accepted pairs [acc], oldest first *)
Definition holds_newest (h : nat) (acc : list (list F * list F)) (m : mem F) : Prop :=
  m_dirs m = Some (map fst (lastn h acc)) /\
  m_stps m = Some (map snd (lastn h acc)) /\
  m_ro m = Some (map (fun p => fdiv o (fq o 1 1) (vdot o (fst p) (snd p))) (lastn h acc)).

Definition no_lists (m : mem F) : Prop := m_dirs m = None /\ m_stps m = None /\ m_ro m = None.

(** history of an optimizer whose accepted pairs so far are [acc] *)
Definition history (acc : list (list F * list F)) (a : opt F) : Prop :=
  (0 <= o_niter a)%Z /\ Forall acceptable acc /\
  (acc = [] /\ no_lists (o_mem a) \/ o_niter a <> 0%Z /\ holds_newest (Z.to_nat (g_hist (o_grp a))) acc (o_mem a)) /\
  match o_al a with Some al => length al = Z.to_nat (g_hist (o_grp a)) | None => True end.

(** change of the gradient and step taken, as far as the previous step recorded them *)
Definition last_pair (m : mem F) (fg : list F) : list (list F * list F) :=
  match m_pg m, m_d m, m_t m with
  | Some pg, Some d, Some t => [(vsub o fg pg, vscale o t d)]
  | _, _, _ => []
  end.
Definition accepted (ps : list (list F * list F)) : list (list F * list F) :=
  filter (fun p => flt o (fq o 1 10000000000) (vdot o (fst p) (snd p))) ps.

(** the L-BFGS inverse-Hessian approximation applied to v: newest pair first; [gamma] scales the
    initial approximation.  (I - rho s y^T) H (I - rho y s^T) v + rho s (s.v) *)
Fixpoint inv_hessian (gamma : F) (newest_first : list (list F * list F)) (v : list F) : list F :=
  match newest_first with
  | [] => vscale o gamma v
  | (y, s) :: older =>
      let rho := fdiv o (fq o 1 1) (vdot o y s) in
      let c := fmul o rho (vdot o s v) in
      let r := inv_hessian gamma older (vsub o v (vscale o c y)) in
      vadd o r (vscale o (fsub o c (fmul o rho (vdot o y r))) s)
  end.
End Hist.

(** optimizers reached from a new one by any number of calls of [step_2c]; loss functions, line
    searches, parameters and worlds may differ from call to call, and calls may raise *)
Inductive ran {F : Type} (o : fops F) (g : grp F) : opt F -> Prop :=
| ran_new : ran o g (opt0 g)
| ran_step (W : Type) maxabs sumabs (clo clo_g : list (list F) -> W -> W * (exn + F * list F)) clo_ls wolfe yastn fuel nl ng (s : @pst F W) :
    ran o g (p_opt s) ->
    ran o g (p_opt (fst (step_2c o maxabs sumabs clo clo_g clo_ls wolfe yastn fuel nl ng s))).

(** the loss and gradient a step starts from: those passed in, otherwise those of the closure at
    the current parameters; [w] is the world afterwards *)
Definition starts {F W : Type} (clo : list (list F) -> W -> W * (exn + F * list F))
  (nl : option F) (ng : option (list F)) (s : @pst F W) (loss : F) (fg : list F) (w : W) : Prop :=
  match nl, ng with
  | Some l, Some g => loss = l /\ fg = g /\ w = p_w s
  | _, _ => clo (p_x s) (p_w s) = (w, inr (loss, fg))
  end.
(** the point evaluated for that *)
Definition first_eval {F W : Type} (nl : option F) (ng : option (list F)) (s : @pst F W) : list (list (list F)) :=
  match nl, ng with Some _, Some _ => [] | _, _ => [p_x s] end.
(** a loss of the parameters only, never raising; evaluations may change the world *)
Definition loss_of {F W : Type} (f : list (list F) -> F) (upd : list (list F) -> W -> W) : list (list F) -> W -> W * (exn + F) :=
  fun x w => (upd x w, inr (f x)).

(** ** exact arithmetic *)
Definition zeros (n : nat) : list R := repeat 0%R n.
Definition sized (n : nat) (ps : list (list R * list R)) : Prop := Forall (fun p => length (fst p) = n /\ length (snd p) = n) ps.
Definition positive_pairs (ps : list (list R * list R)) : Prop := Forall (fun p => (0 < vdot Rops (fst p) (snd p))%R) ps.
(** an optimizer for n real parameters *)
Definition fits (n : nat) (a : opt R) : Prop :=
  (forall pg, m_pg (o_mem a) = Some pg -> length pg = n) /\ (forall d, m_d (o_mem a) = Some d -> length d = n) /\
  (forall H, m_H (o_mem a) = Some H -> (0 < H)%R) /\ exists acc, history Rops acc a /\ sized n acc.
