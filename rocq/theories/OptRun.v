(** Model of the optimization drivers: [optimize_state] in optim/ad_optim_lbfgs_mod.py:19-358,
    optim/ad_optim.py:9-171, optim/fd_optim_lbfgs_mod.py:37-254 and
    optim/ad_optim_sgd_mod.py:37-216, with their closures, the best-state file, checkpoints and
    resumption.

    A state is the list of its parameter tensors; [write_to_file(..., normalize=True)] is recorded
    as the parameters written.  [loss_fn], [loss.backward()], [grad_fd], [post_proc], [add_noise_]
    and [gauge] are oracles: they see the parameters, the recorded losses and an arbitrary further
    world [E] (environment, context, random numbers), which they may change, and may raise.
    [grad_fd] is modelled in FdGrad.v; here it leaves the parameters as they were.  torch's own
    optimizers (ad_optim.py:73, ad_optim_sgd_mod.py:77) are arbitrary strategies that request
    evaluations at points of their choice.  Logging and [obs_fn] are left out.  A ghost list
    records every evaluation together with its point. *)
From Verif Require Import Base Flt Armijo Lbfgs.
Open Scope st_scope.
Open Scope list_scope.

Section Run.
Context {F : Type} (o : fops F) {E : Type}.
Notation vec := (list F).
Notation params := (list vec).

(** the dictionary [t_data] *)
Record tdata := { t_loss : list F; t_min : F; t_ls : list F; t_min_ls : F }.
(** evaluation: during a line search?, point, loss *)
Definition evaln : Type := bool * params * F.
Record world := { w_t : tdata; w_env : E; w_file : option params; w_evals : list evaln }.
Record ckpt := { c_epoch : Z; c_loss : F; c_params : params; c_opt : opt F }.

Variable pinf : F.                                  (* float('inf') *)
Definition big : F := fq o 10000000000000000 1.     (* 1.0e+16 *)
(** [t_data["min_loss"]] starts with [m] *)
Definition world0 (m : F) (e : E) (file : option params) : world :=
  {| w_t := {| t_loss := []; t_min := m; t_ls := []; t_min_ls := big |}; w_env := e; w_file := file; w_evals := [] |}.

(** loss_fn: the boolean is the value of context["line_search"] *)
Variable loss_fn : bool -> params -> tdata -> E -> E * (exn + F).
Variable gradient : params -> F -> E -> E * (exn + vec).

Definition set_env (w : world) (e : E) : world := {| w_t := w_t w; w_env := e; w_file := w_file w; w_evals := w_evals w |}.

(** ** recording a loss *)
(** ad_optim_lbfgs_mod.py:209-212, ad_optim.py:118-121, fd_optim_lbfgs_mod.py:163-166,
    ad_optim_sgd_mod.py:120-123 *)
Definition record_loss (x : params) (l : F) (w : world) : world :=
  let t := w_t w in
  let better := flt o l (t_min t) in
  {| w_t := {| t_loss := t_loss t ++ [l]; t_min := if better then l else t_min t; t_ls := t_ls t; t_min_ls := t_min_ls t |};
     w_env := w_env w; w_file := if better then Some x else w_file w; w_evals := w_evals w ++ [(false, x, l)] |}.
(** [write]: ad_optim_lbfgs_mod.py:202-207, 275-280; otherwise fd_optim_lbfgs_mod.py:159-161,
    217-219 and ad_optim_sgd_mod.py:116-118 *)
Definition record_ls (write : bool) (x : params) (l : F) (w : world) : world :=
  let t := w_t w in
  let better := flt o l (t_min_ls t) in
  {| w_t := {| t_loss := t_loss t; t_min := t_min t; t_ls := t_ls t ++ [l]; t_min_ls := if better then l else t_min_ls t |};
     w_env := w_env w; w_file := if write && better && flt o l (t_min t) then Some x else w_file w;
     w_evals := w_evals w ++ [(true, x, l)] |}.

(** ** closures *)
Definition eval_loss (ls : bool) (x : params) (w : world) : world * (exn + F) :=
  let (e, r) := loss_fn ls x (w_t w) (w_env w) in (set_env w e, r).
Definition eval_grad (x : params) (l : F) (w : world) : world * (exn + vec) :=
  let (e, r) := gradient x l (w_env w) in (set_env w e, r).

(** ad_optim_lbfgs_mod.py:178-248 and, with [write := false], ad_optim_sgd_mod.py:98-151: the
    gradient first *)
Definition closure_mod (write ls : bool) (x : params) (w : world) : world * (exn + F * vec) :=
  match eval_loss ls x w with
  | (w, inl e) => (w, inl e)
  | (w, inr l) =>
      match eval_grad x l w with
      | (w, inl e) => (w, inl e)
      | (w, inr g) => ((if ls then record_ls write x l w else record_loss x l w), inr (l, g))
      end
  end.
(** ad_optim.py:112-148 (ls = false) and fd_optim_lbfgs_mod.py:149-196: the loss is recorded first *)
Definition closure_fd (ls : bool) (x : params) (w : world) : world * (exn + F * vec) :=
  match eval_loss ls x w with
  | (w, inl e) => (w, inl e)
  | (w, inr l) =>
      let w := if ls then record_ls false x l w else record_loss x l w in
      match eval_grad x l w with
      | (w, inl e) => (w, inl e)
      | (w, inr g) => (w, inr (l, g))
      end
  end.
(** ad_optim_lbfgs_mod.py:253-292; fd_optim_lbfgs_mod.py:201-232 with [write := false] *)
Definition closure_linesearch (write : bool) (x : params) (w : world) : world * (exn + F) :=
  match eval_loss true x w with
  | (w, inl e) => (w, inl e)
  | (w, inr l) => (record_ls write x l w, inr l)
  end.

(** ** the epochs *)
Notation pst := (@pst F world).
Record run := { r_s : pst; r_ck : list ckpt }.       (* newest checkpoint last *)

(** [store_checkpoint(..., epoch, t_data["loss"][-1])], ad_optim_lbfgs_mod.py:19-43 *)
Definition last_opt {A} (l : list A) : option A := nth_error (rev l) 0.
Definition store (epoch : Z) (r : run) : run * (exn + unit) :=
  match last_opt (t_loss (w_t (p_w (r_s r)))) with
  | None => (r, inl (Py IndexError))
  | Some l => ({| r_s := r_s r; r_ck := r_ck r ++ [{| c_epoch := epoch; c_loss := l; c_params := p_x (r_s r); c_opt := p_opt (r_s r) |}] |}, inr tt)
  end.
(** [t_data["loss_ls"]=[]; t_data["min_loss_ls"]=1.0e+16] *)
Definition reset_ls (s : pst) : pst :=
  let w := p_w s in
  {| p_x := p_x s; p_opt := p_opt s;
     p_w := {| w_t := {| t_loss := t_loss (w_t w); t_min := t_min (w_t w); t_ls := []; t_min_ls := big |};
               w_env := w_env w; w_file := w_file w; w_evals := w_evals w |} |}.
(** two last losses closer than the tolerance *)
Definition stagnates (tol : F) (t : tdata) : bool :=
  match rev (t_loss t) with
  | a :: b :: _ => flt o (fabs o (fsub o a b)) tol
  | _ => false
  end.

(** oracles changing the parameters *)
Variable post_proc : option (params -> E -> E * (exn + params)).
Variable noise : params -> E -> E * params.
Variable gauge : params -> E -> E * (exn + params).
Definition with_params (s : pst) (x : params) (e : E) : pst :=
  {| p_x := x; p_opt := p_opt s; p_w := set_env (p_w s) e |}.
Definition post (s : pst) : pst * (exn + unit) :=
  match post_proc with
  | None => (s, inr tt)
  | Some f => match f (p_x s) (w_env (p_w s)) with
              | (e, inl ex) => (with_params s (p_x s) e, inl ex)
              | (e, inr x) => (with_params s x e, inr tt)
              end
  end.

(** *** ad_optim_lbfgs_mod.py *)
(** the optimization arguments that build the optimizer (create_optimizer, 103-129) *)
Variable g : grp F.
Variables (regauge yastn : bool) (status_antivar : E -> bool).
Variables maxabs sumabs : vec -> F.
Variable wolfe : F -> vec -> F -> vec -> F -> list (F * F * vec) -> F + (F * vec * F * Z).
Variable fuel : nat.
Definition fresh (s : pst) (x : params) (e : E) : pst :=
  {| p_x := x; p_opt := opt0 g; p_w := set_env (p_w s) e |}.

Definition step_mod (nl : option F) (ng : option vec) : M pst (F * option F * option vec) :=
  step_2c o maxabs sumabs (closure_mod true false) (closure_mod true true) (closure_linesearch true) wolfe yastn fuel nl ng.

(** how an epoch ends *)
Inductive ending := Continue | Break | Fail (e : exn).
(** 329-352 *)
Definition after_step (ng : option vec) (s : pst) : pst * ending :=
  match post (reset_ls s) with
  | (s, inl e) => (s, Fail e)
  | (s, inr _) =>
      let w := p_w s in
      if stagnates (g_tol_change g) (w_t w) then (s, Break)
      else if match ng with Some v => fle o (maxabs v) (g_tol_grad g) | None => false end then (s, Break)
      else match m_d (o_mem (p_opt s)) with
      | Some d =>
          match m_t (o_mem (p_opt s)) with
          | None => (s, Fail (Py TypeError))
          | Some t =>
              if fle o (maxabs (vscale o t d)) (g_tol_change g) then (s, Break)
              else if match g_ls g with LSnone | LSdefault => false | _ => status_antivar (w_env w) end then (s, Fail (Py RuntimeError))
              else (s, Continue)
          end
      | None =>
          if match g_ls g with LSnone | LSdefault => false | _ => status_antivar (w_env w) end then (s, Fail (Py RuntimeError))
          else (s, Continue)
      end
  end.
(** 304-352, with the new values of new_loss and new_flat_grad *)
Definition epoch_mod (nl : option F) (ng : option vec) (s : pst) : pst * option F * option vec * ending :=
  match step_mod nl ng s with
  | (s, inr (_, nl', ng')) => let (s, b) := after_step ng' s in (s, nl', ng', b)
  | (s, inl e) =>
      if negb yastn then (s, nl, ng, Fail (Py TypeError))
      else match e with
      | NoFixedPoint => let (e, x) := noise (p_x s) (w_env (p_w s)) in (fresh s x e, None, None, Continue)
      | EnvErr =>
          if regauge then
            match gauge (p_x s) (w_env (p_w s)) with
            | (e, inl ex) => (with_params s (p_x s) e, nl, ng, Fail ex)
            | (e, inr x) => (fresh s x e, nl, ng, Continue)
            end
          else let (s, b) := after_step ng s in (s, nl, ng, b)
      | Py _ => (s, nl, ng, Fail e)
      end
  end.
(** 294-358: [k] epochs are left, the next one has number [epoch]; [max_iter] is opt_max_iter *)
Definition finish (max_iter : Z) (r : run) : run * (exn + unit) :=
  match t_loss (w_t (p_w (r_s r))) with [] => (r, inr tt) | _ => store max_iter r end.
Fixpoint epochs_mod (max_iter : Z) (k : nat) (epoch : Z) (nl : option F) (ng : option vec) (r : run) : run * (exn + unit) :=
  match k with
  | O => finish max_iter r
  | S k' =>
      let r := if (0 <? epoch) && negb (match t_loss (w_t (p_w (r_s r))) with [] => true | _ => false end)
               then fst (store epoch r) else r in
      let '(s, nl', ng', b) := epoch_mod nl ng (r_s r) in
      let r := {| r_s := s; r_ck := r_ck r |} in
      match b with
      | Continue => epochs_mod max_iter k' (epoch + 1) nl' ng' r
      | Break => finish max_iter r
      | Fail e => (r, inl e)
      end
  end.
(** optimize_state with the optimizer [a]: a new one, or one loaded from a checkpoint (173-175) *)
Definition optimize_mod (max_iter : nat) (x : params) (a : opt F) (e : E) (file : option params) : run * (exn + unit) :=
  epochs_mod (Z.of_nat max_iter) max_iter 0 None None {| r_s := {| p_x := x; p_opt := a; p_w := world0 big e file |}; r_ck := [] |}.

(** *** fd_optim_lbfgs_mod.py:234-254 *)
Fixpoint epochs_fd (max_iter : Z) (k : nat) (epoch : Z) (r : run) : run * (exn + unit) :=
  match k with
  | O => store max_iter r
  | S k' =>
      match (if 0 <? epoch then store epoch r else (r, inr tt)) with
      | (r, inl e) => (r, inl e)
      | (r, inr _) =>
          match step_2c o maxabs sumabs (closure_fd false) (closure_fd true) (closure_linesearch false) wolfe yastn fuel None None (r_s r) with
          | (s, inl e) => ({| r_s := s; r_ck := r_ck r |}, inl e)
          | (s, inr _) =>
              match post (reset_ls s) with
              | (s, inl e) => ({| r_s := s; r_ck := r_ck r |}, inl e)
              | (s, inr _) => epochs_fd max_iter k' (epoch + 1) {| r_s := s; r_ck := r_ck r |}
              end
          end
      end
  end.
Definition optimize_fd (max_iter : nat) (x : params) (a : opt F) (e : E) (file : option params) : run * (exn + unit) :=
  epochs_fd (Z.of_nat max_iter) max_iter 0 {| r_s := {| p_x := x; p_opt := a; p_w := world0 big e file |}; r_ck := [] |}.

(** *** ad_optim.py:150-171 and ad_optim_sgd_mod.py:190-216: torch optimizers *)
(** given optimizer, parameters at the start of the step and the evaluations made in the step
    (points, losses, gradients): a further point to evaluate, or the parameters and the
    optimizer after the step, or an exception *)
Variable strategy : opt F -> params -> list (params * F * vec) -> params + (exn + params * opt F).
Fixpoint torch_step (clo : params -> world -> world * (exn + F * vec)) (n : nat) (x0 : params) (seen : list (params * F * vec)) (s : pst) : pst * (exn + unit) :=
  match n with
  | O => (s, inl (Py OutOfFuel))
  | S n' =>
      match strategy (p_opt s) x0 seen with
      | inl x =>
          match clo x (p_w s) with
          | (w, inl e) => ({| p_x := x; p_opt := p_opt s; p_w := w |}, inl e)
          | (w, inr (l, v)) => torch_step clo n' x0 (seen ++ [(x, l, v)]) {| p_x := x; p_opt := p_opt s; p_w := w |}
          end
      | inr (inl e) => (s, inl e)
      | inr (inr (x, a)) => ({| p_x := x; p_opt := a; p_w := p_w s |}, inr tt)
      end
  end.
(** ad_optim_sgd_mod.py: [sgd] resets the line search history and skips post_proc *)
Fixpoint epochs_torch (sgd : bool) (tol : F) (max_iter : Z) (k : nat) (epoch : Z) (r : run) : run * (exn + unit) :=
  match k with
  | O => store max_iter r
  | S k' =>
      match (if 0 <? epoch then store epoch r else (r, inr tt)) with
      | (r, inl e) => (r, inl e)
      | (r, inr _) =>
          match torch_step (if sgd then closure_mod false false else closure_fd false) fuel (p_x (r_s r)) [] (r_s r) with
          | (s, inl e) => ({| r_s := s; r_ck := r_ck r |}, inl e)
          | (s, inr _) =>
              match (if sgd then (reset_ls s, inr tt) else post s) with
              | (s, inl e) => ({| r_s := s; r_ck := r_ck r |}, inl e)
              | (s, inr _) =>
                  let r := {| r_s := s; r_ck := r_ck r |} in
                  if stagnates tol (w_t (p_w s)) then store max_iter r
                  else epochs_torch sgd tol max_iter k' (epoch + 1) r
              end
          end
      end
  end.
Definition optimize_ad (tol : F) (max_iter : nat) (x : params) (a : opt F) (e : E) (file : option params) : run * (exn + unit) :=
  epochs_torch false tol (Z.of_nat max_iter) max_iter 0 {| r_s := {| p_x := x; p_opt := a; p_w := world0 pinf e file |}; r_ck := [] |}.
Definition optimize_sgd (tol : F) (max_iter : nat) (x : params) (a : opt F) (e : E) (file : option params) : run * (exn + unit) :=
  epochs_torch true tol (Z.of_nat max_iter) max_iter 0 {| r_s := {| p_x := x; p_opt := a; p_w := world0 big e file |}; r_ck := [] |}.
End Run.

(** ** loading an optimizer *)
Section Resume.
Context {F : Type} (o : fops F).
(** [l[-h:]] *)
Definition slice_last {A} (h : Z) (l : list A) : list A :=
  let n := Z.of_nat (length l) in
  let start := if 0 <? h then n - h else - h in           (* [-h:] with h <= 0 starts at -h *)
  skipn (Z.to_nat (Z.max 0 (Z.min start n))) l.
(** [filter(None, l)]: None and zero are dropped *)
Definition keep_true (l : list (option F)) : list (option F) :=
  filter (fun a => match a with Some x => negb (feq o x (fq o 0 1)) | None => false end) l.
Definition pad (h : Z) (n : nat) : list (option F) := repeat None (Z.to_nat (h - Z.of_nat n)).

(** load_optimizer_state_, ad_optim_lbfgs_mod.py:69-99, and fd_optim_lbfgs_mod.py:83-113.  [over]:
    the arguments when opt_resume_override_params is set.  Absent keys of the history raise
    KeyError *)
Definition load_optimizer_state (over : option (grp F)) (ck : opt F) : res (opt F) :=
  (match over with
  | None => Ok ck
  | Some g =>
      let g0 := o_grp ck in
      let h := g_hist g in
      let g' := {| g_lr := g_lr g; g_max_iter := g_max_iter g; g_max_eval := g_max_eval g0; g_tol_grad := g_tol_grad g;
                   g_tol_change := g_tol_change g; g_ls := g_ls g; g_ls_eps := g_ls_eps g; g_hist := h |} in
      let m := o_mem ck in
      m <- (if (h <? g_hist g0)%Z then
              match m_dirs m with
              | None => Err KeyError
              | Some dirs =>
                  if (h <? Z.of_nat (length dirs))%Z then
                    match m_stps m, m_ro m with
                    | Some stps, Some ro =>
                        _ <- py_assert (Nat.eqb (length dirs) (length stps) && Nat.eqb (length stps) (length ro)) ;;
                        Ok {| m_d := m_d m; m_t := m_t m; m_dirs := Some (slice_last h dirs); m_stps := Some (slice_last h stps);
                              m_ro := Some (slice_last h ro); m_H := m_H m; m_pg := m_pg m; m_pl := m_pl m |}
                    | _, _ => Err KeyError
                    end
                  else Ok m
              end
            else Ok m) ;;
      al <- match o_al ck with None => Err KeyError | Some al => Ok (keep_true al) end ;;
      let al := if (h <? Z.of_nat (length al))%Z then slice_last h al else al ++ pad h (length al) in
      Ok {| o_grp := g'; o_niter := o_niter ck; o_mem := m; o_al := Some al |}
  end)%res.

(** ad_optim.py:80-108, for torch's optimizer: (old_dirs, old_stps, ro, al) of the checkpoint and
    its history size; [h] is the new one *)
Definition load_torch (h h0 : Z) (dirs stps : list (list F)) (ro al : list (option F)) :
  list (list F) * list (list F) * list (option F) * list (option F) :=
  let '(dirs, stps) := if (h <? h0)%Z && (h <? Z.of_nat (length dirs))%Z then (slice_last h dirs, slice_last h stps) else (dirs, stps) in
  let ro := keep_true ro in
  let al := keep_true al in
  if (h <? Z.of_nat (length ro))%Z then (dirs, stps, slice_last h ro, slice_last h al)
  else (dirs, stps, ro ++ pad h (length ro), al ++ pad h (length ro)).
End Resume.
