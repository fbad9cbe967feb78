(** Concrete runs of the optimizer models, in rational arithmetic. *)
From Coq Require Import QArith.
From Verif Require Import Base Flt Armijo Lbfgs LbfgsSpec FdGrad.
Open Scope list_scope.

Definition qz (n : Z) : Q := (n # 1).
(** x^2/2 + 2 y^2 and its gradient, over all components in turn *)
Fixpoint quad (s : bool) (v : list Q) : Q :=
  match v with [] => 0 # 1 | a :: v' => fadd Qops (fmul Qops (if s then 2 # 1 else 1 # 2) (fmul Qops a a)) (quad (negb s) v') end.
Fixpoint qgrad (s : bool) (v : list Q) : list Q :=
  match v with [] => [] | a :: v' => fmul Qops (if s then 4 # 1 else 1 # 1) a :: qgrad (negb s) v' end.
Definition qmax (v : list Q) : Q := fold_left (fun a b => if Qltb a (Qabs.Qabs b) then Qabs.Qabs b else a) v (0 # 1).
Definition qsum (v : list Q) : Q := fold_left (fun a b => fadd Qops a (Qabs.Qabs b)) v (0 # 1).

(** the world is the list of the points evaluated *)
Definition tworld := list (list (list Q)).
Definition qclo (x : list (list Q)) (w : tworld) : tworld * (exn + Q * list Q) :=
  (w ++ [x], inr (quad false (concat x), qgrad false (concat x))).
Definition qclo_ls (x : list (list Q)) (w : tworld) : tworld * (exn + Q) := (w ++ [x], inr (quad false (concat x))).
(** accepts the first evaluation of t *)
Definition qwolfe (t : Q) (d : list Q) (loss : Q) (g : list Q) (gtd : Q) (seen : list (Q * Q * list Q)) : Q + (Q * list Q * Q * Z) :=
  match seen with [] => inl t | (a, l, g) :: _ => inr (l, g, a, 1%Z) end.

Definition qgrp (ls : lsfn) (k hist : Z) : grp Q := {| g_lr := 1 # 1; g_max_iter := k; g_max_eval := 10; g_tol_grad := 1 # 100000;
  g_tol_change := 1 # 1000000000; g_ls := ls; g_ls_eps := 1 # 100000000; g_hist := hist |}.
Definition qstart (ls : lsfn) (k hist : Z) : @pst Q tworld :=
  {| p_x := [[1 # 1]; [1 # 1; 2 # 1]]; p_opt := opt0 (qgrp ls k hist); p_w := [] |}.
Definition qstep := step_2c Qops qmax qsum qclo qclo qclo_ls qwolfe true 20 None None.

(** n successful steps *)
Fixpoint qsteps (n : nat) (s : @pst Q tworld) : option (@pst Q tworld) :=
  match n with O => Some s | S m => match qstep s with (s', inr _) => qsteps m s' | _ => None end end.

(** a line-search closure that never converges *)
Definition qclo_nofp (x : list (list Q)) (w : tworld) : tworld * (exn + Q) := (w ++ [x], inl NoFixedPoint).
(** one that fails the first time only *)
Definition qclo_first (x : list (list Q)) (w : tworld) : tworld * (exn + Q) :=
  (w ++ [x], match w with [_] => inl NoFixedPoint | _ => inr (quad false (concat x)) end).
(** one that raises EnvError *)
Definition qclo_env (x : list (list Q)) (w : tworld) : tworld * (exn + Q) := (w ++ [x], inl EnvErr).

(** a steep parabola *)
Definition steep_f (x : list (list Q)) : Q := fmul Qops (5000000000 # 1) (vdot Qops (concat x) (concat x)).
Definition steep (x : list (list Q)) (w : unit) : unit * (exn + Q * list Q) := (w, inr (steep_f x, vscale Qops (10000000000 # 1) (concat x))).
Definition steep_ls (x : list (list Q)) (w : unit) : unit * (exn + Q) := (w, inr (steep_f x)).
Definition steep_start : @pst Q unit := {| p_x := [[1 # 10]]; p_opt := opt0 (qgrp LSbacktracking 1 10); p_w := tt |}.
