(** Concrete runs of SGD, in rational arithmetic. *)
From Coq Require Import QArith.
From Verif Require Import Base Flt Armijo Lbfgs Sgd SgdSpec.
Open Scope list_scope.

(** x^2/2 for one parameter *)
Definition para (x : list (list Q)) : Q := fmul Qops (1 # 2) (vdot Qops (concat x) (concat x)).
Definition para_clo (x : list (list Q)) (w : unit) : unit * (exn + Q * list Q) := (w, inr (para x, concat x)).
Definition para_ls (x : list (list Q)) (w : unit) : unit * (exn + Q) := (w, inr (para x)).
Definition sgd_grp (ls : lsfn) (nest : bool) : sgrp (F:=Q) :=
  {| sg_lr := 1 # 10; sg_wd := 0 # 1; sg_mom := 9 # 10; sg_damp := 0 # 1; sg_nest := nest; sg_ls := ls; sg_eps := 1 # 100000000 |}.
Definition sgd_start : sst (F:=Q) (W:=unit) := {| q_x := [[1 # 1]]; q_buf := None; q_w := tt |}.
Definition sgd_steps (g : sgrp (F:=Q)) := fix go (n : nat) (s : sst (F:=Q) (W:=unit)) :=
  match n with O => Some s | S m => match sgd_step Qops para_clo para_ls g 20 s with (s', inr _) => go m s' | _ => None end end.
