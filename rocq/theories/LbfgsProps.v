(** Properties C21, C22, C24, C53, C54, C55: the L-BFGS optimizer and the finite-difference
    gradient. *)
From Coq Require Import Reals QArith.
From Verif Require Import Base Flt Armijo ArmijoSpec Lbfgs LbfgsSpec FdGrad FdSpec LbfgsExamples
  LbfgsProofs LbfgsProofs2 LbfgsProofs3 LbfgsDir FdProofs LbfgsWrap.
Open Scope list_scope.

(** ** C21 *)

(** in every arithmetic, after any calls whatsoever: the lists hold the newest accepted pairs *)
Theorem C21_history_invariant : forall (F : Type) (o : fops F) (g : grp F) (a : opt F),
  (1 <= g_hist g)%Z -> ran o g a -> o_grp a = g /\ exists acc, history o acc a.
Proof. exact @ran_history. Qed.
Print Assumptions C21_history_invariant.

(** in particular: equal lengths, at most history_size, all pairs acceptable, ro = 1/ys *)
Theorem C21_bounded_and_synchronized : forall (F : Type) (o : fops F) (g : grp F) (a : opt F),
  (1 <= g_hist g)%Z -> ran o g a ->
  forall dirs stps ro, m_dirs (o_mem a) = Some dirs -> m_stps (o_mem a) = Some stps -> m_ro (o_mem a) = Some ro ->
  length dirs = length stps /\ length dirs = length ro /\ (Z.of_nat (length dirs) <= g_hist g)%Z /\
  forall i y s r, nth_error dirs i = Some y -> nth_error stps i = Some s -> nth_error ro i = Some r ->
    flt o (fq o 1 10000000000) (vdot o y s) = true /\ r = fdiv o (fq o 1 1) (vdot o y s).
Proof. exact @ran_bounded. Qed.
Print Assumptions C21_bounded_and_synchronized.

(** one call, successful or not: pairs are only added, the oldest dropped *)
Theorem C21_step_extends : forall (F : Type) (o : fops F) (W : Type) maxabs sumabs
  (clo clo_g : list (list F) -> W -> W * (exn + F * list F)) clo_ls wolfe yastn fuel acc nl ng (s : @pst F W),
  (1 <= g_hist (o_grp (p_opt s)))%Z -> history o acc (p_opt s) ->
  let s' := fst (step_2c o maxabs sumabs clo clo_g clo_ls wolfe yastn fuel nl ng s) in
  o_grp (p_opt s') = o_grp (p_opt s) /\ exists new, history o (acc ++ new) (p_opt s').
Proof. exact @step_hist. Qed.
Print Assumptions C21_step_extends.

(** a successful call with max_iter = 1 adds exactly the change of the gradient and the step
    recorded by the previous call, if acceptable, and records gradient, direction and step *)
Theorem C21_step_adds_last_pair : forall (F : Type) (o : fops F) (W : Type) maxabs sumabs
  (clo clo_g : list (list F) -> W -> W * (exn + F * list F)) clo_ls wolfe yastn fuel acc nl ng (s s' : @pst F W) r,
  (1 <= g_hist (o_grp (p_opt s)))%Z -> history o acc (p_opt s) -> g_max_iter (o_grp (p_opt s)) = 1%Z ->
  step_2c o maxabs sumabs clo clo_g clo_ls wolfe yastn fuel nl ng s = (s', inr r) ->
  exists loss fg w, starts clo nl ng s loss fg w /\
   (fle o (maxabs fg) (g_tol_grad (o_grp (p_opt s))) = true /\ p_opt s' = p_opt s /\ p_x s' = p_x s \/
    history o (acc ++ (if (o_niter (p_opt s) =? 0)%Z then [] else accepted o (last_pair o (o_mem (p_opt s)) fg))) (p_opt s') /\
    o_niter (p_opt s') = (o_niter (p_opt s) + 1)%Z /\ m_pg (o_mem (p_opt s')) = Some fg /\
    exists d t, m_d (o_mem (p_opt s')) = Some d /\ m_t (o_mem (p_opt s')) = Some t).
Proof. exact @step_exact. Qed.
Print Assumptions C21_step_adds_last_pair.

Example C21_example :
  option_map (fun s => (m_dirs (o_mem (p_opt s)), m_stps (o_mem (p_opt s)))) (qsteps 2 (qstart LSbacktracking 1 2)) =
    Some (Some [[-1 # 7; -16 # 7; -2 # 7]], Some [[-1 # 7; -4 # 7; -2 # 7]])
  /\ option_map (fun s => option_map (@length _) (m_dirs (o_mem (p_opt s)))) (qsteps 4 (qstart LSbacktracking 1 2)) = Some (Some 2%nat).
Proof. split; vm_compute; reflexivity. Qed.

(** history_size = 0: the first accepted pair makes the step fail *)
Example C21_example_size_zero : snd (qstep (fst (qstep (qstart LSbacktracking 1 0)))) = inl (Py IndexError).
Proof. vm_compute. reflexivity. Qed.

(** ** C22: exact arithmetic *)
Open Scope R_scope.

Theorem C22_two_loop_recursion : forall (gamma : R) (pairs : list (list R * list R)) (n : nat) al g,
  sized n pairs -> length g = n -> (length pairs <= length al)%nat ->
  exists al', two_loop Rops (map fst pairs) (map snd pairs) (map (fun p => fdiv Rops (fq Rops 1 1) (vdot Rops (fst p) (snd p))) pairs) gamma al g =
    Ok (vneg Rops (inv_hessian Rops gamma (rev pairs) g), al').
Proof. exact two_loop_spec. Qed.
Print Assumptions C22_two_loop_recursion.

Theorem C22_secant : forall (gamma : R) n y s older, sized n ((y, s) :: older) -> vdot Rops y s <> 0 ->
  inv_hessian Rops gamma ((y, s) :: older) y = s.
Proof. exact secant. Qed.
Print Assumptions C22_secant.

Theorem C22_positive_definite : forall (gamma : R) n, 0 < gamma -> forall pairs v, sized n pairs -> positive_pairs pairs ->
  length v = n -> v <> zeros n -> 0 < vdot Rops v (inv_hessian Rops gamma pairs v).
Proof. exact Hop_positive. Qed.
Print Assumptions C22_positive_definite.

(** every step of an optimizer for n real parameters, with max_iter = 1 and gradients of length
    n.  The optimizer remains one for n parameters, even if the step raises; a step that returns
    found a small gradient, or used minus the operator of the newest pairs applied to the
    gradient, which is a direction of descent.  [maxabs] is any function that is within the
    tolerance for the zero gradient *)
Theorem C22_step_direction : forall (W : Type) maxabs sumabs
  (clo clo_g : list (list R) -> W -> W * (exn + R * list R)) clo_ls wolfe yastn fuel n nl ng (s s' : @pst R W) r,
  (1 <= g_hist (o_grp (p_opt s)))%Z -> g_max_iter (o_grp (p_opt s)) = 1%Z ->
  maxabs (zeros n) <= g_tol_grad (o_grp (p_opt s)) ->
  (forall x w w' loss g, clo x w = (w', inr (loss, g)) -> length g = n) -> (forall g, ng = Some g -> length g = n) ->
  fits n (p_opt s) -> step_2c Rops maxabs sumabs clo clo_g clo_ls wolfe yastn fuel nl ng s = (s', r) ->
  o_grp (p_opt s') = o_grp (p_opt s) /\ fits n (p_opt s') /\
  forall x, r = inr x -> exists loss fg w, starts clo nl ng s loss fg w /\
    (maxabs fg <= g_tol_grad (o_grp (p_opt s)) \/
     exists d H acc, m_d (o_mem (p_opt s')) = Some d /\ m_H (o_mem (p_opt s')) = Some H /\ history Rops acc (p_opt s') /\
       d = vneg Rops (inv_hessian Rops H (rev (lastn (Z.to_nat (g_hist (o_grp (p_opt s)))) acc)) fg) /\
       vdot Rops fg d < 0).
Proof. exact @step_direction. Qed.
Print Assumptions C22_step_direction.

Example C22_example :
  two_loop Qops [[2#1; 1#1]] [[1#1; 0#1]] [1 # 2]%Q (1 # 1)%Q [None] [2#1; 1#1] = Ok ([-1#1; 0#1], [Some (-1 # 1)%Q])
  /\ inv_hessian Qops (1 # 1)%Q [([2#1; 1#1], [1#1; 0#1])] [2#1; 1#1] = [1#1; 0#1]
  /\ inv_hessian Qops (1 # 1)%Q [([2#1; 1#1], [1#1; 0#1])] [1#1; 1#1] = [1#4; 1#2].
Proof. repeat split; vm_compute; reflexivity. Qed.
Close Scope R_scope.

(** ** C24 *)

(** a trial evaluation that returns has restored the parameters, whatever the closure *)
Theorem C24_trial_restores : forall (F : Type) (o : fops F) (W : Type) (clo_ls : list (list F) -> W -> W * (exn + F)) d t (s s' : @pst F W) v,
  dir_eval o clo_ls (p_x s) d t s = (s', inr v) ->
  p_x s' = p_x s /\ p_opt s' = p_opt s /\
  exists y, add_grad o t d (p_x s) = Ok y /\ clo_ls y (p_w s) = (p_w s', inr v).
Proof. exact @dir_eval_restores. Qed.
Print Assumptions C24_trial_restores.

Theorem C24_trial_with_gradient_restores : forall (F : Type) (o : fops F) (W : Type) (clo_g : list (list F) -> W -> W * (exn + F * list F)) d t (s s' : @pst F W) v,
  dir_eval_g o clo_g (p_x s) d t s = (s', inr v) ->
  p_x s' = p_x s /\ p_opt s' = p_opt s /\
  exists y, add_grad o t d (p_x s) = Ok y /\ clo_g y (p_w s) = (p_w s', inr v).
Proof. exact @dir_eval_g_restores. Qed.
Print Assumptions C24_trial_with_gradient_restores.

(** the step itself: flattened, the parameters change by t times the direction, and every
    tensor keeps its size *)
Theorem C24_add_grad : forall (F : Type) (o : fops F) t d ps ps', add_grad o t d ps = Ok ps' ->
  map (@length F) ps' = map (@length F) ps /\
  concat ps' = vaxpy o t (concat ps) (firstn (length (concat ps)) d).
Proof. exact @add_grad_spec. Qed.
Print Assumptions C24_add_grad.

(** if evaluations do not raise NoFixedPointError (other exceptions end the step): a successful
    step evaluates the starting point and points x + t' d only, and ends at x + t d, with d and t
    as recorded, or at x when it stops before the line search *)
Theorem C24_step_moves_along_direction : forall (F : Type) (o : fops F) (W : Type) maxabs sumabs
  (clo clo_g : list (list F) -> W -> W * (exn + F * list F)) clo_ls wolfe yastn fuel (tr : W -> list (list (list F))),
  (forall x w, tr (fst (clo_ls x w)) = tr w ++ [x]) -> (forall x w, tr (fst (clo_g x w)) = tr w ++ [x]) ->
  (forall x w, tr (fst (clo x w)) = tr w ++ [x]) ->
  (forall x w, snd (clo_ls x w) <> inl NoFixedPoint) -> (forall x w, snd (clo_g x w) <> inl NoFixedPoint) ->
  (forall x w, snd (clo x w) <> inl NoFixedPoint) ->
  forall acc nl ng (s s' : @pst F W) r,
  (1 <= g_hist (o_grp (p_opt s)))%Z -> history o acc (p_opt s) -> g_max_iter (o_grp (p_opt s)) = 1%Z ->
  step_2c o maxabs sumabs clo clo_g clo_ls wolfe yastn fuel nl ng s = (s', inr r) ->
  p_x s' = p_x s /\ tr (p_w s') = tr (p_w s) ++ first_eval nl ng s \/
  exists d t pts, m_d (o_mem (p_opt s')) = Some d /\ m_t (o_mem (p_opt s')) = Some t /\
    add_grad o t d (p_x s) = Ok (p_x s') /\
    tr (p_w s') = tr (p_w s) ++ first_eval nl ng s ++ pts /\
    Forall (fun y => exists t', add_grad o t' d (p_x s) = Ok y) pts.
Proof. exact @step_moves. Qed.
Print Assumptions C24_step_moves_along_direction.

(** with NoFixedPointError the parameters drift: the step recorded is about 1e-8, but the
    parameters moved by almost 2/7 of the direction *)
Theorem C24_no_fixed_point_refuted : exists (s' : @pst Q tworld) r d t y,
  step_2c Qops qmax qsum qclo qclo qclo_nofp qwolfe true 40 None None (qstart LSbacktracking 1 2) = (s', inr r) /\
  m_d (o_mem (p_opt s')) = Some d /\ m_t (o_mem (p_opt s')) = Some t /\
  add_grad Qops t d (p_x (qstart LSbacktracking 1 2)) = Ok y /\ y <> p_x s' /\
  p_x s' = [[83886081 # 117440512]; [-4194303 # 29360128; 83886081 # 58720256]] /\ t = (1 # 117440512)%Q.
Proof. exact nofp_drift. Qed.
Print Assumptions C24_no_fixed_point_refuted.

(** and a single NoFixedPointError makes the search accept a loss that belongs to another point
    than the one it moves to *)
Theorem C24_wrong_loss_refuted : exists (s' : @pst Q tworld) l0 l1 g1,
  step_2c Qops qmax qsum qclo qclo qclo_first qwolfe true 40 None None (qstart LSbacktracking 1 2) = (s', inr (l0, Some l1, g1)) /\
  l1 <> quad false (concat (p_x s')).
Proof. exact nofp_wrong_loss. Qed.
Print Assumptions C24_wrong_loss_refuted.

(** finite differences: if no evaluation raises, the coefficients are restored and the points
    evaluated are the coefficients with one component shifted, each component once *)
Theorem C24_fd_restores : forall (F : Type) (o : fops F) (W : Type) (loss_fn : list (list F) -> W -> W * (exn + F)) eps loss0
  (tr : W -> list (list (list F))), (forall x w, tr (fst (loss_fn x w)) = tr w ++ [x]) ->
  forall (s s' : fst_) r, grad_fd o loss_fn eps loss0 s = (s', inr r) ->
  f_x s' = f_x s /\ tr (f_w s') = tr (f_w s) ++ map (fun p => shifted o eps (fst p) (snd p) (f_x s)) (components (f_x s)).
Proof. exact @grad_fd_ok. Qed.
Print Assumptions C24_fd_restores.

(** and the result consists of the difference quotients *)
Theorem C24_fd_quotients : forall (F : Type) (o : fops F) (f : list (list F) -> F) eps loss0 s,
  grad_fd o (pure_loss f) eps loss0 s = (s, inr (quotients o eps f loss0 (f_x s))).
Proof. exact @grad_fd_val. Qed.
Print Assumptions C24_fd_quotients.

(** an exception in an evaluation leaves the coefficient shifted *)
Theorem C24_fd_exception_refuted : exists (loss_fn : list (list Q) -> unit -> unit * (exn + Q)) (s s' : fst_) e,
  grad_fd Qops loss_fn (1 # 10)%Q (1 # 1)%Q s = (s', inl e) /\ f_x s' <> f_x s.
Proof. exact fd_exception. Qed.
Print Assumptions C24_fd_exception_refuted.

Example C24_example :
  option_map (fun s => (p_x s, p_w s)) (qsteps 1 (qstart LSbacktracking 1 2)) =
    Some ([[6 # 7]; [3 # 7; 12 # 7]], [[[1 # 1]; [1 # 1; 2 # 1]]; [[6 # 7]; [3 # 7; 12 # 7]]])%Q
  /\ grad_fd Qops (pure_loss (fun x => quad false (concat x))) (1 # 10)%Q (9 # 2)%Q {| f_x := [[1 # 1]; [1 # 1; 2 # 1]]; f_w := tt |} =
    ({| f_x := [[1 # 1]; [1 # 1; 2 # 1]]; f_w := tt |}, inr [[21 # 20]; [21 # 5; 41 # 20]])%Q.
Proof. split; vm_compute; reflexivity. Qed.

(** ** C53 *)

(** in exact arithmetic with a positive tolerance_change no call performs a second iteration,
    however large max_iter is *)
Theorem C53_further_iterations_refuted : forall (W : Type) maxabs sumabs
  (clo clo_g : list (list R) -> W -> W * (exn + R * list R)) clo_ls wolfe yastn fuel nl ng (s : @pst R W),
  (0 < g_tol_change (o_grp (p_opt s)))%R ->
  (o_niter (p_opt (fst (step_2c Rops maxabs sumabs clo clo_g clo_ls wolfe yastn fuel nl ng s))) <= o_niter (p_opt s) + 1)%Z.
Proof. exact @one_iteration_R. Qed.
Print Assumptions C53_further_iterations_refuted.

Example C53_example : option_map (fun s => (o_niter (p_opt s), p_x s)) (qsteps 1 (qstart LSdefault 100 2)) =
  Some (1%Z, [[6 # 7]; [3 # 7; 12 # 7]])%Q.
Proof. vm_compute. reflexivity. Qed.

(** ** C54 *)

(** after a failed first step every later step fails with a TypeError unless the gradient is
    already small *)
Theorem C54_failed_first_step_refuted : forall (F : Type) (o : fops F) (W : Type) maxabs sumabs
  (clo clo_g : list (list F) -> W -> W * (exn + F * list F)) clo_ls wolfe yastn fuel nl ng (s : @pst F W) loss fg w,
  (1 <= o_niter (p_opt s))%Z -> m_pg (o_mem (p_opt s)) = None -> (1 <= g_max_iter (o_grp (p_opt s)))%Z ->
  starts clo nl ng s loss fg w -> fle o (maxabs fg) (g_tol_grad (o_grp (p_opt s))) = false ->
  snd (step_2c o maxabs sumabs clo clo_g clo_ls wolfe yastn fuel nl ng s) = inl (Py TypeError).
Proof. exact @unusable. Qed.
Print Assumptions C54_failed_first_step_refuted.

(** such states are reached *)
Example C54_example :
  let s1 := step_2c Qops qmax qsum qclo qclo qclo_env qwolfe true 40 None None (qstart LSbacktracking 1 2) in
  snd s1 = inl EnvErr /\ o_niter (p_opt (fst s1)) = 1%Z /\ m_pg (o_mem (p_opt (fst s1))) = None /\
  snd (qstep (fst s1)) = inl (Py TypeError).
Proof. vm_compute. repeat split. Qed.

(** later failures: the pair accepted by the next step combines the gradient difference since
    the failed step with the displacement of the step before it *)
Theorem C54_failed_step_pair_refuted : exists s2 s3 s4 : @pst Q tworld,
  qsteps 2 (qstart LSbacktracking 1 3) = Some s2 /\
  fst (step_2c Qops qmax qsum qclo qclo qclo_env qwolfe true 40 None None s2) = s3 /\
  qsteps 1 s3 = Some s4 /\
  exists st y, m_stps (o_mem (p_opt s4)) = Some (st ++ [y]) /\
    m_stps (o_mem (p_opt s3)) = Some st /\ last st [] = y /\ length st = 2%nat.
Proof. exact failed_pair. Qed.
Print Assumptions C54_failed_step_pair_refuted.

(** ** C55 *)

(** a successful step with backtracking, started with a step larger than line_search_eps, ends
    at a point whose loss satisfies the sufficient-decrease condition and is the one returned *)
Theorem C55_step_decreases : forall (F : Type) (o : fops F) (W : Type) (f : list (list F) -> F) maxabs sumabs
  (clo clo_g : list (list F) -> W -> W * (exn + F * list F)) wolfe upd yastn fuel acc nl ng (s s' : @pst F W) r,
  (1 <= g_hist (o_grp (p_opt s)))%Z -> history o acc (p_opt s) -> g_max_iter (o_grp (p_opt s)) = 1%Z ->
  g_ls (o_grp (p_opt s)) = LSbacktracking ->
  step_2c o maxabs sumabs clo clo_g (loss_of f upd) wolfe yastn fuel nl ng s = (s', inr r) ->
  exists loss fg w, starts clo nl ng s loss fg w /\
   (p_x s' = p_x s \/
    (flt o (g_ls_eps (o_grp (p_opt s))) (first_step o sumabs (o_niter (p_opt s) + 1) (g_lr (o_grp (p_opt s))) fg) = true ->
     exists d t, m_d (o_mem (p_opt s')) = Some d /\ m_t (o_mem (p_opt s')) = Some t /\
      snd (fst r) = Some (f (p_x s')) /\
      fle o (f (p_x s')) (fadd o loss (fmul o (fmul o (fq o 1 10000) t) (vdot o fg d))) = true)).
Proof. exact @step_decreases. Qed.
Print Assumptions C55_step_decreases.

(** otherwise the step is taken without any evaluation: here the loss grows 81-fold *)
Theorem C55_small_step_refuted : exists (s s' : @pst Q unit) r,
  g_ls (o_grp (p_opt s)) = LSbacktracking /\
  step_2c Qops qmax qsum steep steep steep_ls qwolfe true 40 None None s = (s', inr r) /\
  steep_f (p_x s) = (50000000 # 1)%Q /\ steep_f (p_x s') = (4050000000 # 1)%Q.
Proof. exact small_step. Qed.
Print Assumptions C55_small_step_refuted.
