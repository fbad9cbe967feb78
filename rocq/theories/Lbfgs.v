(** Model of the L-BFGS optimizer [LBFGS_MOD], optim/lbfgs_modified.py:84-408.

    The loss closures are oracles: they see the parameters and an arbitrary further world [W]
    (environment, recorded losses, files), may change that world and may raise.  They do not
    change the parameters.  [_add_grad], [_clone_param], [_set_param], [_gather_flat_grad] are
    inherited from torch's LBFGS; they are the code repeated in optim/sgd_modified.py:130-166.
    [_strong_wolfe] (torch) is an arbitrary strategy that requests evaluations at steps of its
    choice and then returns.  Not modelled: the counter state['func_evals'], devices, dtypes,
    logging. *)
From Verif Require Import Base Flt Armijo.
Open Scope st_scope.
Open Scope list_scope.

(** ** parameters: a list of tensors, each flattened *)
Section Params.
Context {F : Type} (o : fops F).

(** sgd_modified.py:152-159, [p.data.add_(update[offset:offset+numel].view_as(p), alpha=step)];
    view_as raises RuntimeError when the slice is too short *)
Fixpoint add_grad_from (off : nat) (t : F) (d : list F) (ps : list (list F)) : res (list (list F)) :=
  match ps with
  | [] => Ok []
  | p :: ps' =>
      let u := firstn (length p) (skipn off d) in
      if Nat.eqb (length u) (length p) then
        bind (add_grad_from (off + length p) t d ps') (fun r => Ok (vaxpy o t p u :: r))
      else Err RuntimeError
  end.
Definition add_grad := add_grad_from 0.

(** sgd_modified.py:164-166 *)
Fixpoint set_param (ps x : list (list F)) : list (list F) :=
  match ps, x with
  | p :: ps', q :: x' => q :: set_param ps' x'
  | _, _ => ps
  end.
End Params.

(** ** Python list operations *)
Definition getitem {A} (l : list A) (i : nat) : res A :=
  match nth_error l i with Some a => Ok a | None => Err IndexError end.
Fixpoint setitem {A} (l : list A) (i : nat) (a : A) : res (list A) :=
  match l, i with
  | [], _ => Err IndexError
  | _ :: l', O => Ok (a :: l')
  | x :: l', S i' => bind (setitem l' i' a) (fun r => Ok (x :: r))
  end.
Definition pop0 {A} (l : list A) : res (list A) := match l with [] => Err IndexError | _ :: l' => Ok l' end.

(** [line_search_fn]: None, "default", "backtracking", "strong_wolfe", anything else *)
Inductive lsfn := LSnone | LSdefault | LSbacktracking | LSwolfe | LSother.

(** ** optimizer state *)
Section State.
Variable F : Type.

(** self.param_groups[0] *)
Record grp := { g_lr : F; g_max_iter : Z; g_max_eval : Z; g_tol_grad : F; g_tol_change : F;
  g_ls : lsfn; g_ls_eps : F; g_hist : Z }.

(** the entries of [state] read at lbfgs_modified.py:210-217 and written at 399-406; None when
    the key is missing.  Used for the local variables of the same names as well *)
Record mem := { m_d : option (list F); m_t : option F; m_dirs : option (list (list F)); m_stps : option (list (list F));
  m_ro : option (list F); m_H : option F; m_pg : option (list F); m_pl : option F }.

Record opt := { o_grp : grp; o_niter : Z; o_mem : mem; o_al : option (list (option F)) }.

Definition mem0 : mem := {| m_d := None; m_t := None; m_dirs := None; m_stps := None; m_ro := None; m_H := None; m_pg := None; m_pl := None |}.
(** a new optimizer *)
Definition opt0 (g : grp) : opt := {| o_grp := g; o_niter := 0; o_mem := mem0; o_al := None |}.
End State.
Arguments g_lr {F}. Arguments g_max_iter {F}. Arguments g_max_eval {F}. Arguments g_tol_grad {F}. Arguments g_tol_change {F}.
Arguments g_ls {F}. Arguments g_ls_eps {F}. Arguments g_hist {F}.
Arguments m_d {F}. Arguments m_t {F}. Arguments m_dirs {F}. Arguments m_stps {F}. Arguments m_ro {F}. Arguments m_H {F}. Arguments m_pg {F}. Arguments m_pl {F}.
Arguments o_grp {F}. Arguments o_niter {F}. Arguments o_mem {F}. Arguments o_al {F}.
Arguments opt0 {F}. Arguments mem0 {F}.

Section Pure.
Context {F : Type} (o : fops F).
Definition zero := fq o 0 1.
Definition one := fq o 1 1.

(** lbfgs_modified.py:240-254: [(old_dirs, old_stps, ro, H_diag)] *)
Definition memory_update (hist : Z) (dirs stps : list (list F)) (ro : list F) (H : F) (y s : list F) :
  res (list (list F) * list (list F) * list F * F) :=
  (let ys := vdot o y s in
  if flt o (fq o 1 10000000000) ys then
    ' (dirs, stps, ro) <-
      (if Z.of_nat (length dirs) =? hist
       then a <- pop0 dirs ;; b <- pop0 stps ;; c <- pop0 ro ;; Ok (a, b, c)
       else Ok (dirs, stps, ro)) ;;
    Ok (dirs ++ [y], stps ++ [s], ro ++ [fdiv o one ys], fdiv o ys (vdot o y y))
  else Ok (dirs, stps, ro, H))%res.

(** lbfgs_modified.py:267-273: i = n-1, ..., 0 *)
Fixpoint back_loop (dirs stps : list (list F)) (ro : list F) (n : nat) (al : list (option F)) (q : list F) :
  res (list (option F) * list F) :=
  match n with
  | O => Ok (al, q)
  | S i =>
      (s <- getitem stps i ;; r <- getitem ro i ;;
       let a := fmul o (vdot o s q) r in
       al' <- setitem al i (Some a) ;; y <- getitem dirs i ;;
       back_loop dirs stps ro i al' (vaxpy o (fneg o a) q y))%res
  end.

(** lbfgs_modified.py:279-285: i = i0, ..., i0+n-1.  An entry of [al] that is None cannot be
    subtracted from *)
Fixpoint forw_loop (dirs stps : list (list F)) (ro : list F) (al : list (option F)) (n i0 : nat) (r : list F) : res (list F) :=
  match n with
  | O => Ok r
  | S n' =>
      (y <- getitem dirs i0 ;; c <- getitem ro i0 ;;
       let be := fmul o (vdot o y r) c in
       s <- getitem stps i0 ;; a <- getitem al i0 ;;
       a <- match a with Some a => Ok a | None => Err TypeError end ;;
       forw_loop dirs stps ro al n' (S i0) (vaxpy o (fsub o a be) r s))%res
  end.

(** lbfgs_modified.py:258-285 *)
Definition two_loop (dirs stps : list (list F)) (ro : list F) (H : F) (al : list (option F)) (g : list F) :
  res (list F * list (option F)) :=
  (let n := length dirs in
   ' (al, q) <- back_loop dirs stps ro n al (vneg o g) ;;
   r <- forw_loop dirs stps ro al n 0 (vscale o H q) ;;
   Ok (r, al))%res.
End Pure.

Section Step.
Context {F : Type} (o : fops F) {W : Type}.
Notation vec := (list F).

(** ** the state of the optimization *)
Record pst := { p_x : list vec; p_opt : opt F; p_w : W }.

Variables maxabs sumabs : vec -> F.              (* x.abs().max(), x.abs().sum() *)
(** loss and flat gradient; the same with linesearching=True; loss only *)
Variable clo : list vec -> W -> W * (exn + F * vec).
Variable clo_g : list vec -> W -> W * (exn + F * vec).
Variable clo_ls : list vec -> W -> W * (exn + F).
(** [_strong_wolfe]: given t, d, loss, flat_grad, gtd and the evaluations made so far, either a
    further step to evaluate or the result (new_loss, new_flat_grad, t, ls_func_evals) *)
Variable wolfe : F -> vec -> F -> vec -> F -> list (F * F * vec) -> F + (F * vec * F * Z).
Variable yastn : bool.
Variable fuel : nat.

Definition call {A} (c : list vec -> W -> W * (exn + A)) : M pst A := fun s =>
  let (w, r) := c (p_x s) (p_w s) in ({| p_x := p_x s; p_opt := p_opt s; p_w := w |}, r).
Definition get_x : M pst (list vec) := fun s => (s, inr (p_x s)).
Definition put_x (x : list vec) : M pst unit := fun s => ({| p_x := x; p_opt := p_opt s; p_w := p_w s |}, inr tt).
Definition get_opt : M pst (opt F) := fun s => (s, inr (p_opt s)).
Definition put_opt (a : opt F) : M pst unit := fun s => ({| p_x := p_x s; p_opt := a; p_w := p_w s |}, inr tt).
Definition put_niter (n : Z) : M pst unit :=
  a <-- get_opt ;; put_opt {| o_grp := o_grp a; o_niter := n; o_mem := o_mem a; o_al := o_al a |}.
Definition put_mem (m : mem F) : M pst unit :=
  a <-- get_opt ;; put_opt {| o_grp := o_grp a; o_niter := o_niter a; o_mem := m; o_al := o_al a |}.
Definition put_al (l : list (option F)) : M pst unit :=
  a <-- get_opt ;; put_opt {| o_grp := o_grp a; o_niter := o_niter a; o_mem := o_mem a; o_al := Some l |}.

(** self._add_grad *)
Definition add_grad_m (t : F) (d : vec) : M pst unit :=
  x <-- get_x ;; x' <-- lift (add_grad o t d x) ;; put_x x'.
(** self._set_param *)
Definition set_param_m (x : list vec) : M pst unit := x0 <-- get_x ;; put_x (set_param x0 x).

(** [_directional_evaluate_derivative_free], lbfgs_modified.py:137-143 *)
Definition dir_eval (x : list vec) (d : vec) (t : F) : M pst F :=
  _ <-- add_grad_m t d ;; loss <-- call clo_ls ;; _ <-- set_param_m x ;; ret loss.
(** [_directional_evaluate], lbfgs_modified.py:145-151 *)
Definition dir_eval_g (x : list vec) (d : vec) (t : F) : M pst (F * vec) :=
  _ <-- add_grad_m t d ;; lg <-- call clo_g ;; _ <-- set_param_m x ;; ret lg.

(** the default amin of [_scalar_search_armijo] *)
Definition amin : F := fq o 1 100000000.

(** the while loops at lbfgs_modified.py:322-327 and, with [halve], 348-353 *)
Fixpoint bt_loop (halve : bool) (n : nat) (x : list vec) (d : vec) (eps loss gtd : F) (t : F) (nl : option F) :
  M pst (option F * option F) :=
  match n with
  | O => raise (Py OutOfFuel)
  | S n' =>
      if flt o eps t then
        r <-- armijo o (dir_eval x d) yastn loss gtd amin fuel (if halve then fdiv o t (fq o 2 1) else t) ;;
        match ls_stat r with
        | LsTrue => ret (ls_alpha r, ls_loss r)
        | LsNoFixedPoint =>
            match ls_alpha r with
            | Some a => bt_loop halve n' x d eps loss gtd (fdiv o a (fq o 2 1)) (ls_loss r)
            | None => raise (Py TypeError)
            end
        end
      else ret (Some t, nl)
  end.

Definition need_t (p : option F * option F) : M pst (F * option F) :=
  match fst p with Some t => ret (t, snd p) | None => raise (Py RuntimeError) end.

(** torch's [_strong_wolfe] driving [obj_func_strong_wolfe] *)
Fixpoint wolfe_loop (n : nat) (x : list vec) (d : vec) (t loss : F) (g : vec) (gtd : F) (seen : list (F * F * vec)) :
  M pst (F * vec * F * Z) :=
  match n with
  | O => raise (Py OutOfFuel)
  | S n' =>
      match wolfe t d loss g gtd seen with
      | inr r => ret r
      | inl a => lg <-- dir_eval_g x d a ;; wolfe_loop n' x d t loss g gtd (seen ++ [(a, fst lg, snd lg)])
      end
  end.

(** result of the line search section: t, new_loss, new_flat_grad, evaluations, opt_cond *)
Record ls_out := { lo_t : F; lo_loss : option F; lo_grad : option vec; lo_evals : Z; lo_cond : bool }.

(** lbfgs_modified.py:310-373 *)
Definition line_search (g : grp F) (last : bool) (d : vec) (t loss : F) (fg : vec) (gtd : F) : M pst ls_out :=
  match g_ls g with
  | LSnone | LSdefault =>
      _ <-- add_grad_m t d ;;
      if last then ret {| lo_t := t; lo_loss := None; lo_grad := None; lo_evals := 0; lo_cond := false |}
      else lg <-- call clo ;;
           ret {| lo_t := t; lo_loss := Some (fst lg); lo_grad := Some (snd lg); lo_evals := 1;
                  lo_cond := fle o (maxabs (snd lg)) (g_tol_grad g) |}
  | LSbacktracking =>
      x <-- get_x ;;
      p <-- bt_loop false fuel x d (g_ls_eps g) loss gtd t None ;;
      tl <-- need_t p ;;
      _ <-- add_grad_m (fst tl) d ;;
      ret {| lo_t := fst tl; lo_loss := snd tl; lo_grad := None; lo_evals := 0; lo_cond := false |}
  | LSwolfe =>
      x <-- get_x ;;
      r <-- (fun s => match wolfe_loop fuel x d t loss fg gtd [] s with
             | (s', inr (nl, ng, t', ev)) =>
                 (s', inr {| lo_t := t'; lo_loss := Some nl; lo_grad := Some ng; lo_evals := ev;
                             lo_cond := fle o (maxabs ng) (g_tol_grad g) |})
             | (s', inl e) =>
                 if yastn then
                   match e with
                   | NoFixedPoint =>
                       (_ <-- set_param_m x ;;
                        p <-- bt_loop true fuel x d (g_ls_eps g) loss gtd t None ;;
                        tl <-- need_t p ;;
                        ret {| lo_t := fst tl; lo_loss := snd tl; lo_grad := None; lo_evals := 0; lo_cond := false |}) s'
                   | _ => (s', inl e)
                   end
                 else (s', inl (Py TypeError))
             end) ;;
      _ <-- add_grad_m (lo_t r) d ;;
      ret r
  | LSother => raise (Py RuntimeError)
  end.

(** memory update and direction, lbfgs_modified.py:229-285.  [shared]: the local lists are the
    objects stored in [state], so that in-place changes are visible there at once *)
Definition direction (shared : bool) (l : mem F) (fg : vec) : M pst (mem F * bool) :=
  a <-- get_opt ;;
  if o_niter a =? 1 then
    ret ({| m_d := Some (vneg o fg); m_t := m_t l; m_dirs := Some []; m_stps := Some []; m_ro := Some [];
            m_H := Some (one o); m_pg := m_pg l; m_pl := m_pl l |}, false)
  else
    match m_pg l, m_d l, m_t l, m_dirs l, m_stps l, m_ro l, m_H l with
    | Some pg, Some d, Some t, Some dirs, Some stps, Some ro, Some H =>
        let y := vsub o fg pg in
        let s := vscale o t d in
        ' (dirs, stps, ro, H) <-- lift (memory_update o (g_hist (o_grp a)) dirs stps ro H y s) ;;
        let m := o_mem a in
        _ <-- (if shared
               then put_mem {| m_d := m_d m; m_t := m_t m; m_dirs := Some dirs; m_stps := Some stps; m_ro := Some ro;
                               m_H := m_H m; m_pg := m_pg m; m_pl := m_pl m |}
               else ret tt) ;;
        let al := match o_al a with Some al => al | None => repeat None (Z.to_nat (g_hist (o_grp a))) end in
        _ <-- put_al al ;;
        ' (r, al) <-- lift (two_loop o dirs stps ro H al fg) ;;
        _ <-- put_al al ;;
        ret ({| m_d := Some r; m_t := Some t; m_dirs := Some dirs; m_stps := Some stps; m_ro := Some ro;
                m_H := Some H; m_pg := m_pg l; m_pl := m_pl l |}, shared)
    | None, _, _, _, _, _, _ => raise (Py TypeError)        (* flat_grad.sub(None) *)
    | _, None, _, _, _, _, _ => raise (Py AttributeError)   (* None.mul *)
    | _, _, _, _, _, _, _ => raise (Py TypeError)
    end.

(** [min(1., 1. / flat_grad.abs().sum()) * lr] or [lr], lbfgs_modified.py:297-300 *)
Definition first_step (niter : Z) (lr : F) (fg : vec) : F :=
  if niter =? 1 then
    let u := fdiv o (one o) (sumabs fg) in
    fmul o (if flt o u (one o) then u else one o) lr
  else lr.

(** outcome of an iteration *)
Record it := { i_mem : mem F; i_shared : bool; i_pgshared : bool; i_break : bool;
  i_loss : option F; i_grad : option vec; i_evals : Z }.

(** one iteration of the while loop, lbfgs_modified.py:222-397; [n] is the local n_iter *)
Definition iteration (n : Z) (shared pgshared : bool) (l : mem F) (evals : Z) (loss : F) (fg : vec)
  (nl0 : option F) (ng0 : option vec) : M pst it :=
  a <-- get_opt ;;
  _ <-- put_niter (o_niter a + 1) ;;
  ' (l, shared) <-- direction shared l fg ;;
  a <-- get_opt ;;
  let g := o_grp a in
  (* prev_flat_grad.copy_ in place, or a clone *)
  let pgshared' := match m_pg l with Some _ => pgshared | None => false end in
  let m := o_mem a in
  _ <-- (if pgshared'
         then put_mem {| m_d := m_d m; m_t := m_t m; m_dirs := m_dirs m; m_stps := m_stps m; m_ro := m_ro m;
                         m_H := m_H m; m_pg := Some fg; m_pl := m_pl m |}
         else ret tt) ;;
  let t := first_step (o_niter a) (g_lr g) fg in
  let d := match m_d l with Some d => d | None => [] end in
  let l := {| m_d := m_d l; m_t := Some t; m_dirs := m_dirs l; m_stps := m_stps l; m_ro := m_ro l; m_H := m_H l;
              m_pg := Some fg; m_pl := Some loss |} in
  let gtd := vdot o fg d in
  if flt o (fneg o (g_tol_change g)) gtd then
    ret {| i_mem := l; i_shared := shared; i_pgshared := pgshared'; i_break := true; i_loss := nl0; i_grad := ng0; i_evals := evals |}
  else
    r <-- line_search g (n =? g_max_iter g) d t loss fg gtd ;;
    let evals := evals + lo_evals r in
    let l := {| m_d := m_d l; m_t := Some (lo_t r); m_dirs := m_dirs l; m_stps := m_stps l; m_ro := m_ro l; m_H := m_H l;
                m_pg := m_pg l; m_pl := m_pl l |} in
    let brk := (n =? g_max_iter g) || (g_max_eval g <=? evals) || lo_cond r ||
               fle o (maxabs (vscale o (lo_t r) d)) (g_tol_change g) ||
               flt o (fabs o (fsub o loss loss)) (g_tol_change g) in
    ret {| i_mem := l; i_shared := shared; i_pgshared := pgshared'; i_break := brk; i_loss := lo_loss r; i_grad := lo_grad r; i_evals := evals |}.

(** the while loop: [k] iterations are left before [n_iter] reaches max_iter.  [loss] and
    [flat_grad] are never reassigned in it *)
Fixpoint iterations (k : nat) (n : Z) (shared pgshared : bool) (l : mem F) (evals : Z) (loss : F) (fg : vec)
  (nl : option F) (ng : option vec) : M pst (mem F * option F * option vec) :=
  match k with
  | O => ret (l, nl, ng)
  | S k' =>
      i <-- iteration (n + 1) shared pgshared l evals loss fg nl ng ;;
      if i_break i then ret (i_mem i, i_loss i, i_grad i)
      else iterations k' (n + 1) (i_shared i) (i_pgshared i) (i_mem i) (i_evals i) loss fg (i_loss i) (i_grad i)
  end.

(** [step_2c], lbfgs_modified.py:154-408: [(orig_loss, new_loss, new_flat_grad)] *)
Definition step_2c (new_loss : option F) (new_grad : option vec) : M pst (F * option F * option vec) :=
  ' (loss, fg, evals) <--
    match new_loss, new_grad with
    | Some l, Some g => ret (l, g, 0)
    | _, _ => lg <-- call clo ;; ret (fst lg, snd lg, 1)
    end ;;
  a <-- get_opt ;;
  if fle o (maxabs fg) (g_tol_grad (o_grp a)) then ret (loss, None, None)
  else
    let m := o_mem a in
    ' (l, nl, ng) <-- iterations (Z.to_nat (g_max_iter (o_grp a))) 0 true
        (match m_pg m with Some _ => true | None => false end) m evals loss fg new_loss new_grad ;;
    _ <-- put_mem l ;;
    ret (loss, nl, ng).
End Step.
