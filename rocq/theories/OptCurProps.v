(** Property C71: the loss and gradient with which a step of the L-BFGS driver starts; and the
    histories of losses kept by a step (C25). *)
From Coq Require Import Reals QArith.
From Verif Require Import Base Flt Armijo Lbfgs LbfgsSpec LbfgsExamples OptRun OptRunSpec OptRunExamples OptCurSpec OptCurProofs OptCurExamples.
Open Scope list_scope.

(** losses evaluated in a step of ad_optim_lbfgs_mod.py or of fd_optim_lbfgs_mod.py, whatever
    happens in it, are appended to t_data["loss"] and t_data["loss_ls"] *)
Theorem C25_step_records : forall (F E : Type) (o : fops F) (loss_fn : bool -> list (list F) -> @tdata F -> E -> E * (exn + F)) gradient maxabs sumabs wolfe yastn fuel
  nl ng s,
  appends (p_w s) (p_w (fst (step_mod o loss_fn gradient yastn maxabs sumabs wolfe fuel nl ng s))) /\
  appends (p_w s) (p_w (fst (step_2c o maxabs sumabs (closure_fd o loss_fn gradient false) (closure_fd o loss_fn gradient true) (closure_linesearch o loss_fn false)
    wolfe yastn fuel nl ng s))).
Proof. exact @step_appends. Qed.
Print Assumptions C25_step_records.

Example C25_step_example :
  let s := fst (step_mod Qops (yloss 100 EnvErr) ygrad true qmax qsum qwolfe 20 None None
    {| p_x := [[3 # 1]]; p_opt := opt0 (xg LSbacktracking 1); p_w := world0 Qops (big Qops) O None |}) in
  t_loss (w_t (p_w s)) = [81 # 4] /\ t_ls (w_t (p_w s)) = [4 # 1].
Proof. vm_compute. auto. Qed.

(** ad_optim_lbfgs_mod.py with any line search: between two checkpoints the optimizer was started
    anew, or nothing changed, or the step started from the loss and gradient of the first
    checkpoint's parameters.  Evaluations may fail with exceptions other than EnvError, after which
    the state is perturbed; the post-processing keeps the parameters; the strong Wolfe line search
    returns an evaluated point, or its start when there is one iteration per epoch *)
Theorem C71_step_starts_current : forall (F E : Type) (o : fops F) (loss_fn : bool -> list (list F) -> @tdata F -> E -> E * (exn + F)) gradient post_proc
  noise gauge g regauge yastn antivar maxabs sumabs wolfe fuel f df,
  answers_loss loss_fn f -> answers_grad gradient df -> keeps_params post_proc -> honest (fq o 0 1) wolfe ->
  (forall a b, fadd o a (fmul o (fq o 0 1) b) = a) ->
  (g_max_iter g = 1%Z \/ strict wolfe) ->
  forall max_iter x a e file, (g_max_iter (o_grp a) = 1%Z \/ strict wolfe) ->
  successive (current g f df) (map (fun c => (c_params c, c_opt c))
    (r_ck (fst (optimize_mod o loss_fn gradient post_proc noise gauge g regauge yastn antivar maxabs sumabs wolfe fuel max_iter x a e file)))).
Proof. exact @run_current. Qed.
Print Assumptions C71_step_starts_current.

(** parameters and previous gradients; the fourth evaluation fails and the state is moved to 7 *)
Example C71_example : ycks (yrun LSnone 2 3 NoFixedPoint true false 5) =
  [([[2 # 1]], Some [27 # 1]); ([[30 # 19]], Some [8 # 1]); ([[7 # 1]], None); ([[6 # 1]], Some [343 # 1]); ([[546 # 127]], Some [216 # 1])].
Proof. vm_compute. reflexivity. Qed.
Example C71_example_hypotheses : answers_loss (yloss 3 NoFixedPoint) quart /\ answers_grad ygrad quart' /\ strict qwolfe.
Proof. split; [apply yloss_answers; discriminate|]. split; [exact ygrad_answers|exact qwolfe_strict]. Qed.

(** with EnvError and regauging: the state after the gauge transformation, which keeps the loss,
    is moved along the gradient of the state before it, and the loss grows *)
Theorem C71_regauge_refuted : (forall x, quart (qneg x) = quart x) /\ exists k a b c,
  ycks (yrun LSwolfe 1 k EnvErr true false 3) = [a; b; c] /\ snd b = None /\ snd c <> Some (quart' (fst b)) /\ (quart (fst b) < quart (fst c))%Q.
Proof. exact (conj quart_even regauge_refuted). Qed.
Print Assumptions C71_regauge_refuted.

(** with EnvError and no regauging: the line search leaves a displaced state, the next step starts
    from the gradient before it *)
Theorem C71_env_error_refuted : exists k a b c,
  ycks (yrun LSwolfe 1 k EnvErr false false 3) = [a; b; c] /\ snd b = snd c /\ fst b <> fst c /\ snd c <> Some (quart' (fst b)).
Proof. exact displaced_refuted. Qed.
Print Assumptions C71_env_error_refuted.

(** with a post-processing that keeps the loss but not the parameters the next step uses the
    gradient found before it, and the loss grows *)
Theorem C71_post_proc_refuted : (forall x, quart (qneg x) = quart x) /\ exists a b,
  ycks (yrun LSwolfe 1 100 EnvErr false true 2) = [a; b] /\ snd b <> Some (quart' (fst a)) /\ (quart (fst a) < quart (fst b))%Q.
Proof. exact (conj quart_even post_refuted). Qed.
Print Assumptions C71_post_proc_refuted.
