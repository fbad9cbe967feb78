(** Property C46: SGD with momentum and line search. *)
From Coq Require Import QArith.
From Verif Require Import Base Flt Armijo Lbfgs Sgd SgdSpec SgdExamples SgdProofs.
Open Scope list_scope.

(** without line search: minus lr times the momentum direction, and the documented buffer *)
Theorem C46_fixed_step : forall (F : Type) (o : fops F) (W : Type) (clo : list (list F) -> W -> W * (exn + F * list F)) clo_ls g fuel
  (s s' : sst (F:=F) (W:=W)) loss, sg_ls g = LSnone \/ sg_ls g = LSdefault ->
  sgd_step o clo clo_ls g fuel s = (s', inr loss) ->
  exists fg w, clo (q_x s) (q_w s) = (w, inr (loss, fg)) /\
    let dg := decayed o g (q_x s) fg in
    q_buf s' = velocity o g (q_buf s) dg /\ q_w s' = w /\
    add_grad o (fneg o (sg_lr g)) (momentum_direction o g (velocity o g (q_buf s) dg) dg) (q_x s) = Ok (q_x s').
Proof. exact @step_fixed. Qed.
Print Assumptions C46_fixed_step.

(** with line search: minus t times the momentum direction, with a t whose evaluated loss is
    sufficiently smaller; the buffer is the documented one only with nesterov or without
    momentum, otherwise it is its negative *)
Theorem C46_searched_step_partial : forall (F : Type) (o : fops F) (W : Type) (clo : list (list F) -> W -> W * (exn + F * list F)) clo_ls g fuel
  (s s' : sst (F:=F) (W:=W)) loss, sg_ls g = LSbacktracking ->
  sgd_step o clo clo_ls g fuel s = (s', inr loss) ->
  exists fg w, clo (q_x s) (q_w s) = (w, inr (loss, fg)) /\
    let dg := decayed o g (q_x s) fg in
    let d := vscale o (fneg o (fq o 1 1)) (momentum_direction o g (velocity o g (q_buf s) dg) dg) in
    q_buf s' = (if uses_momentum o g && negb (sg_nest g) then Some d else velocity o g (q_buf s) dg) /\
    exists t v w1 w2, add_grad o t d (q_x s) = Ok (q_x s') /\ clo_ls (q_x s') w1 = (w2, inr v) /\
      fle o v (fadd o loss (fmul o (fmul o (fq o 1 10000) t) (vdot o fg d))) = true.
Proof. exact @step_searched. Qed.
Print Assumptions C46_searched_step_partial.

(** after any number of steps (no weight decay) *)
Theorem C46_buffer_after_steps_partial : forall (F : Type) (o : fops F) (W : Type) (clo : list (list F) -> W -> W * (exn + F * list F)) clo_ls g fuel
  (s s' : sst (F:=F) (W:=W)) gs,
  uses_momentum o g && negb (sg_nest g) = false \/ sg_ls g = LSnone \/ sg_ls g = LSdefault ->
  nonzero o (sg_wd g) = false -> sruns o g clo clo_ls fuel s gs s' -> q_buf s' = fold_left (velocity o g) gs (q_buf s).
Proof. exact @run_buffer. Qed.
Print Assumptions C46_buffer_after_steps_partial.

(** plain momentum with line search on x^2/2 from x = 1: the second step does not move although
    gradient and buffer point the same way *)
Theorem C46_momentum_refuted : exists s1 s2 : sst (F:=Q) (W:=unit),
  sgd_steps (sgd_grp LSbacktracking false) 1 sgd_start = Some s1 /\ sgd_steps (sgd_grp LSbacktracking false) 2 sgd_start = Some s2 /\
  q_x s1 = [[9 # 10]] /\ q_x s2 = q_x s1 /\
  q_buf s1 = Some [-1 # 1] /\ q_buf s2 = Some [0 # 1] /\
  velocity Qops (sgd_grp LSbacktracking false) (Some [1 # 1]) [9 # 10] = Some [9 # 5].
Proof.
  exists {| q_x := [[9 # 10]]; q_buf := Some [-1 # 1]; q_w := tt |}, {| q_x := [[9 # 10]]; q_buf := Some [0 # 1]; q_w := tt |}.
  repeat split; vm_compute; reflexivity.
Qed.
Print Assumptions C46_momentum_refuted.

Example C46_example :
  map (fun n => option_map (fun s => (q_x s, q_buf s)) (sgd_steps (sgd_grp LSdefault false) n sgd_start)) (seq 1 2) =
    [Some ([[9 # 10]], Some [1 # 1]); Some ([[18 # 25]], Some [9 # 5])] /\
  map (fun n => option_map (fun s => (q_x s, q_buf s)) (sgd_steps (sgd_grp LSbacktracking true) n sgd_start)) (seq 1 2) =
    [Some ([[81 # 100]], Some [1 # 1]); Some ([[5751 # 10000]], Some [171 # 100])].
Proof. split; vm_compute; reflexivity. Qed.
