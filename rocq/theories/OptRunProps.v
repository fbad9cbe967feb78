(** Properties C25, C26, C27: the files written by the optimization drivers, and resuming. *)
From Coq Require Import Reals QArith.
From Verif Require Import Base Flt Armijo Lbfgs LbfgsSpec LbfgsExamples OptRun OptRunSpec OptRunExamples OptRunWrap.
Open Scope list_scope.

(** ** C25: the best-state file *)

(** the comparisons of reals, of extended reals with not-a-number, and of rationals qualify *)
Theorem C25_comparisons : comparison Rops /\ comparison Eops /\ comparison Qops.
Proof. exact comparisons. Qed.
Print Assumptions C25_comparisons.

(** ad_optim.py, for every optimizer of torch: among all evaluations the file holds the first
    one with the smallest loss *)
Theorem C25_ad_file_holds_best : forall (F E : Type) (o : fops F) pinf loss_fn gradient post_proc fuel strategy tol max_iter x a (e : E) file,
  comparison o ->
  let w := p_w (r_s (fst (optimize_ad o pinf loss_fn gradient post_proc fuel strategy tol max_iter x a e file))) in
  holds_best o pinf (w_evals w) file (w_file w) /\ recorded loss_fn w.
Proof. exact @ad_file. Qed.
Print Assumptions C25_ad_file_holds_best.

Example C25_ad_example : let r := xad par over' LSnone 1 3 [[3 # 1]] in
  losses r = [(false, 9 # 2); (false, 18 # 1); (false, 72 # 1)] /\ file_of r = Some [[3 # 1]].
Proof. vm_compute. auto. Qed.

(** ad_optim_sgd_mod.py *)
Theorem C25_sgd_file_holds_best : forall (F E : Type) (o : fops F) loss_fn gradient post_proc fuel strategy tol max_iter x a (e : E) file,
  comparison o ->
  let w := p_w (r_s (fst (optimize_sgd o loss_fn gradient post_proc fuel strategy tol max_iter x a e file))) in
  holds_best o (fq o 10000000000000000 1) (w_evals w) file (w_file w) /\ recorded loss_fn w.
Proof. exact @sgd_file. Qed.
Print Assumptions C25_sgd_file_holds_best.

(** fd_optim_lbfgs_mod.py: among the evaluations outside line searches *)
Theorem C25_fd_file_holds_best : forall (F E : Type) (o : fops F) loss_fn gradient post_proc yastn maxabs sumabs wolfe fuel max_iter x a (e : E) file,
  comparison o ->
  let w := p_w (r_s (fst (optimize_fd o loss_fn gradient post_proc yastn maxabs sumabs wolfe fuel max_iter x a e file))) in
  holds_best o (fq o 10000000000000000 1) (starts_of (w_evals w)) file (w_file w) /\ recorded loss_fn w.
Proof. exact @fd_file. Qed.
Print Assumptions C25_fd_file_holds_best.

(** the state the last step leads to, found by the line search, is not written *)
Example C25_fd_example : let r := xfd par over' 2 [[3 # 1]] (opt0 (xg LSbacktracking 1)) None in
  losses r = [(false, 9 # 2); (true, 2 # 1); (false, 2 # 1); (true, 0 # 1)] /\ file_of r = Some [[2 # 1]].
Proof. vm_compute. auto. Qed.

(** ad_optim_lbfgs_mod.py without line search *)
Theorem C25_mod_file_holds_best : forall (F E : Type) (o : fops F) loss_fn gradient post_proc noise gauge g regauge yastn antivar maxabs sumabs wolfe fuel
  max_iter x a (e : E) file,
  comparison o -> (g_ls (o_grp a) = LSnone \/ g_ls (o_grp a) = LSdefault) -> (g_ls g = LSnone \/ g_ls g = LSdefault) ->
  let w := p_w (r_s (fst (optimize_mod o loss_fn gradient post_proc noise gauge g regauge yastn antivar maxabs sumabs wolfe fuel max_iter x a e file))) in
  holds_best o (fq o 10000000000000000 1) (w_evals w) file (w_file w) /\ recorded loss_fn w.
Proof. exact @mod_file_nols. Qed.
Print Assumptions C25_mod_file_holds_best.

(** with any line search, after any exceptions and restarts: the file holds an evaluated state,
    and no evaluation outside line searches is better *)
Theorem C25_mod_file_as_good : forall (F E : Type) (o : fops F) loss_fn gradient post_proc noise gauge g regauge yastn antivar maxabs sumabs wolfe fuel
  max_iter x a (e : E) file,
  comparison o ->
  let w := p_w (r_s (fst (optimize_mod o loss_fn gradient post_proc noise gauge g regauge yastn antivar maxabs sumabs wolfe fuel max_iter x a e file))) in
  holds_as_good o (fq o 10000000000000000 1) (w_evals w) file (w_file w) /\ recorded loss_fn w.
Proof. exact @mod_file. Qed.
Print Assumptions C25_mod_file_as_good.

Example C25_mod_example : let r := xmod par over' LSbacktracking 1 3 [[3 # 1]] (opt0 (xg LSbacktracking 1)) None in
  losses r = [(false, 9 # 2); (true, 2 # 1); (false, 2 # 1); (true, 0 # 1); (false, 0 # 1)] /\ file_of r = Some [[0 # 1]].
Proof. vm_compute. auto. Qed.

(** it need not hold the best of all evaluated states: a trial of the line search is written,
    then overwritten by a state that is worse *)
Theorem C25_all_evaluations_refuted : exists (f df : Q -> Q) x,
  let r := xmod f df LSbacktracking 1 2 x (opt0 (xg LSbacktracking 1)) None in
  exists c y, In c (w_evals (p_w (r_s (fst r)))) /\ file_of r = Some y /\ (e_loss c < f (the y))%Q.
Proof. exact all_evaluations_refuted. Qed.
Print Assumptions C25_all_evaluations_refuted.

(** a resumed run overwrites the file with a state worse than the one it holds *)
Theorem C25_resumed_refuted : exists (f df : Q -> Q) x c y y',
  let r := xmod f df LSnone 1 1 x (opt0 (xg LSnone 1)) None in
  r_ck (fst r) = [c] /\ file_of r = Some y /\
  file_of (xmod f df LSnone 1 1 (c_params c) (c_opt c) (file_of r)) = Some y' /\ (f (the y) < f (the y'))%Q.
Proof. exact resumed_refuted. Qed.
Print Assumptions C25_resumed_refuted.

(** ** C26: checkpoints *)

(** the loss in a checkpoint is not that of its parameters *)
Theorem C26_pairing_refuted : exists (f df : Q -> Q) x c,
  In c (r_ck (fst (xmod f df LSnone 1 3 x (opt0 (xg LSnone 1)) None))) /\ ~ (c_loss c == f (the (c_params c)))%Q.
Proof. exact pairing_refuted. Qed.
Print Assumptions C26_pairing_refuted.

(** it is the loss of the parameters one step earlier: those of the previous checkpoint, or the
    initial ones.  Loss and gradient are functions of the parameters here *)
Theorem C26_mod_loss_lags_one_step : forall (F E : Type) (o : fops F) (loss_fn : bool -> list (list F) -> @tdata F -> E -> E * (exn + F)) gradient post_proc
  noise gauge g regauge yastn antivar maxabs sumabs wolfe fuel f df h,
  pure_loss loss_fn f -> pure_grad gradient df -> pure_post post_proc h ->
  forall max_iter x a e file, g_ls (o_grp a) <> LSwolfe -> g_max_iter (o_grp a) = 1%Z ->
  let cks := r_ck (fst (optimize_mod o loss_fn gradient post_proc noise gauge g regauge yastn antivar maxabs sumabs wolfe fuel max_iter x a e file)) in
  map c_loss cks = map f (firstn (length cks) (x :: map c_params cks)).
Proof. exact @mod_lag. Qed.
Print Assumptions C26_mod_loss_lags_one_step.

Theorem C26_fd_loss_lags_one_step : forall (F E : Type) (o : fops F) (loss_fn : bool -> list (list F) -> @tdata F -> E -> E * (exn + F)) gradient post_proc
  yastn maxabs sumabs wolfe fuel f df h,
  pure_loss loss_fn f -> pure_grad gradient df -> pure_post post_proc h ->
  forall max_iter x a e file, g_max_iter (o_grp a) = 1%Z ->
  let cks := r_ck (fst (optimize_fd o loss_fn gradient post_proc yastn maxabs sumabs wolfe fuel max_iter x a e file)) in
  map c_loss cks = map f (firstn (length cks) (x :: map c_params cks)).
Proof. exact @fd_lag_one. Qed.
Print Assumptions C26_fd_loss_lags_one_step.

Example C26_lag_example :
  cks (xmod par par' LSnone 1 3 [[3 # 1]] (opt0 (xg LSnone 1)) None) = [(1%Z, 9 # 2, [[2 # 1]]); (2%Z, 2 # 1, [[0 # 1]]); (3%Z, 0 # 1, [[0 # 1]])].
Proof. vm_compute. reflexivity. Qed.

(** with the strong Wolfe line search the loss of the first state is stored again and again *)
Theorem C26_wolfe_refuted : exists (f df : Q -> Q) x c c',
  let r := xmod f df LSwolfe 1 3 x (opt0 (xg LSwolfe 1)) None in
  r_ck (fst r) = [c; c'] /\ c_loss c' = f (the x) /\ (f (the (c_params c')) < f (the (c_params c)))%Q /\ (f (the (c_params c)) < f (the x))%Q.
Proof. exact wolfe_refuted. Qed.
Print Assumptions C26_wolfe_refuted.

(** resuming with the stored optimizer nevertheless continues the run: the parameters and
    optimizers of all further checkpoints agree, up to the one run that stops first.  Any crash
    point: [c] is any checkpoint; the resumed run may have another environment and length *)
Theorem C26_mod_resume_continues : forall (F E : Type) (o : fops F) (loss_fn : bool -> list (list F) -> @tdata F -> E -> E * (exn + F)) gradient post_proc
  noise gauge g regauge yastn antivar maxabs sumabs wolfe fuel f df h,
  pure_loss loss_fn f -> pure_grad gradient df -> pure_post post_proc h ->
  forall max_iter x a e file max_iter' e' file' before c after a', g_ls (o_grp a) <> LSwolfe -> g_max_iter (o_grp a) = 1%Z ->
  let optimize := optimize_mod o loss_fn gradient post_proc noise gauge g regauge yastn antivar maxabs sumabs wolfe fuel in
  r_ck (fst (optimize max_iter x a e file)) = before ++ c :: after ->
  load_optimizer_state o None (c_opt c) = Ok a' ->
  prefix_related (map (fun c => (c_params c, c_opt c)) after)
                 (map (fun c => (c_params c, c_opt c)) (r_ck (fst (optimize max_iter' (c_params c) a' e' file')))).
Proof. exact @mod_resume. Qed.
Print Assumptions C26_mod_resume_continues.

(** fd_optim_lbfgs_mod.py: for every line search and any number of iterations per epoch *)
Theorem C26_fd_resume_continues : forall (F E : Type) (o : fops F) (loss_fn : bool -> list (list F) -> @tdata F -> E -> E * (exn + F)) gradient post_proc
  yastn maxabs sumabs wolfe fuel f df h,
  pure_loss loss_fn f -> pure_grad gradient df -> pure_post post_proc h ->
  forall max_iter x a e file max_iter' e' file' before c after a',
  let optimize := optimize_fd o loss_fn gradient post_proc yastn maxabs sumabs wolfe fuel in
  r_ck (fst (optimize max_iter x a e file)) = before ++ c :: after ->
  load_optimizer_state o None (c_opt c) = Ok a' ->
  prefix_related (map (fun c => (c_params c, c_opt c)) after)
                 (map (fun c => (c_params c, c_opt c)) (r_ck (fst (optimize max_iter' (c_params c) a' e' file')))).
Proof. exact @fd_resume. Qed.
Print Assumptions C26_fd_resume_continues.

Example C26_resume_example :
  let r := xmod par par' LSnone 1 3 [[3 # 1]] (opt0 (xg LSnone 1)) None in
  option_map (fun c => cks (xmod par par' LSnone 1 2 (c_params c) (c_opt c) None)) (hd_error (r_ck (fst r))) =
    Some [(1%Z, 2 # 1, [[0 # 1]]); (2%Z, 0 # 1, [[0 # 1]])].
Proof. vm_compute. reflexivity. Qed.

(** ** C27: resuming with another history size *)

(** the newest pairs are kept in order, the coefficient list has the new size, everything else
    but the options is unchanged *)
Theorem C27_keeps_newest : forall (F : Type) (o : fops F) acc g (ck : opt F) al dirs,
  (1 <= g_hist g)%Z -> (1 <= g_hist (o_grp ck))%Z -> history o acc ck -> o_al ck = Some al -> m_dirs (o_mem ck) = Some dirs ->
  exists a, load_optimizer_state o (Some g) ck = Ok a /\
    holds_newest o (Z.to_nat (Z.min (g_hist g) (g_hist (o_grp ck)))) acc (o_mem a) /\
    (exists al', o_al a = Some al' /\ length al' = Z.to_nat (g_hist g)) /\
    o_grp a = {| g_lr := g_lr g; g_max_iter := g_max_iter g; g_max_eval := g_max_eval (o_grp ck); g_tol_grad := g_tol_grad g;
                 g_tol_change := g_tol_change g; g_ls := g_ls g; g_ls_eps := g_ls_eps g; g_hist := g_hist g |} /\
    o_niter a = o_niter ck /\ m_d (o_mem a) = m_d (o_mem ck) /\ m_t (o_mem a) = m_t (o_mem ck) /\ m_H (o_mem a) = m_H (o_mem ck) /\
    m_pg (o_mem a) = m_pg (o_mem ck) /\ m_pl (o_mem a) = m_pl (o_mem ck).
Proof. exact @keeps_newest. Qed.
Print Assumptions C27_keeps_newest.

(** and the optimizer continues from there: a step, whatever it does, adds pairs to those kept *)
Theorem C27_optimizer_continues : forall (F : Type) (o : fops F) acc g (ck a : opt F) al dirs,
  (1 <= g_hist g)%Z -> (1 <= g_hist (o_grp ck))%Z -> history o acc ck -> o_al ck = Some al -> m_dirs (o_mem ck) = Some dirs ->
  load_optimizer_state o (Some g) ck = Ok a ->
  let kept := lastn (Z.to_nat (g_hist (o_grp ck))) acc in
  history o kept a /\
  forall (W : Type) maxabs sumabs (clo clo_g : list (list F) -> W -> W * (exn + F * list F)) clo_ls wolfe yastn fuel nl ng (s : @pst F W),
  p_opt s = a ->
  let s' := fst (step_2c o maxabs sumabs clo clo_g clo_ls wolfe yastn fuel nl ng s) in
  o_grp (p_opt s') = o_grp a /\ exists new, history o (kept ++ new) (p_opt s').
Proof. exact @load_continues. Qed.
Print Assumptions C27_optimizer_continues.

(** without new options the optimizer is the stored one *)
Theorem C27_unchanged : forall (F : Type) (o : fops F) (ck : opt F), load_optimizer_state o None ck = Ok ck.
Proof. exact @OptRunProofs7.load_same. Qed.
Print Assumptions C27_unchanged.

(** two pairs, then history size 1 *)
Example C27_example : match qsteps 3 (qstart LSbacktracking 1 10) with
  | Some s => match load_optimizer_state Qops (Some (qgrp LSbacktracking 1 1)) (p_opt s) with
    | Ok a => option_map (@length _) (m_dirs (o_mem (p_opt s))) = Some 2%nat /\
        m_dirs (o_mem a) = option_map (skipn 1) (m_dirs (o_mem (p_opt s))) /\ m_ro (o_mem a) = option_map (skipn 1) (m_ro (o_mem (p_opt s))) /\
        option_map (@length _) (o_al a) = Some 1%nat
    | Err _ => False
    end
  | None => False
  end.
Proof. vm_compute. auto. Qed.

(** a checkpoint without coefficient list cannot be loaded with new options *)
Theorem C27_no_coefficients : forall (F : Type) (o : fops F) g (ck : opt F), o_al ck = None ->
  exists e, load_optimizer_state o (Some g) ck = Err e /\ (e = KeyError \/ e = AssertionError).
Proof. exact @OptRunProofs7.load_no_al. Qed.
Print Assumptions C27_no_coefficients.

(** the first checkpoint of a run is of that kind *)
Theorem C27_first_checkpoint_refuted : exists (f df : Q -> Q) x c cs g,
  r_ck (fst (xmod f df LSnone 1 3 x (opt0 (xg LSnone 1)) None)) = c :: cs /\
  load_optimizer_state Qops (Some g) (c_opt c) = Err KeyError.
Proof. exact first_checkpoint_refuted. Qed.
Print Assumptions C27_first_checkpoint_refuted.

(** new history size 0 keeps everything *)
Theorem C27_size_zero_refuted : exists (ck a : opt Q) dirs g,
  g_hist g = 0%Z /\ m_dirs (o_mem ck) = Some dirs /\ (1 <= length dirs)%nat /\
  load_optimizer_state Qops (Some g) ck = Ok a /\ m_dirs (o_mem a) = Some dirs.
Proof. exact size_zero_refuted. Qed.
Print Assumptions C27_size_zero_refuted.

(** ad_optim.py: directions and steps are kept like that *)
Theorem C27_torch_keeps_newest : forall (F : Type) (o : fops F) h h0 dirs stps ro al,
  (1 <= h)%Z -> length stps = length dirs -> (Z.of_nat (length dirs) <= h0)%Z ->
  let '(dirs', stps', _, _) := load_torch o h h0 dirs stps ro al in
  dirs' = lastn (Z.to_nat h) dirs /\ stps' = lastn (Z.to_nat h) stps.
Proof. exact @OptRunProofs7.torch_newest. Qed.
Print Assumptions C27_torch_keeps_newest.

(** but the list ro is filled up with None, so that its length is no longer that of the others *)
Theorem C27_torch_ro_refuted : exists h h0 (dirs stps : list (list Q)) ro al dirs' stps' ro' al',
  length stps = length dirs /\ length ro = length dirs /\ length al = Z.to_nat h0 /\ (Z.of_nat (length dirs) <= h0)%Z /\ (1 <= h)%Z /\
  load_torch Qops h h0 dirs stps ro al = (dirs', stps', ro', al') /\ length ro' <> length dirs'.
Proof. exact torch_ro_refuted. Qed.
Print Assumptions C27_torch_ro_refuted.
