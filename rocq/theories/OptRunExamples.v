(** Concrete optimization runs, in rational arithmetic, with one parameter. *)
From Coq Require Import QArith.
From Verif Require Import Base Flt Armijo Lbfgs LbfgsSpec LbfgsExamples OptRun OptRunSpec.
Open Scope list_scope.

Section R.
Variables (f : Q -> Q) (df : Q -> Q).
Definition the (x : list (list Q)) : Q := hd (0 # 1) (concat x).
(** the environment counts the evaluations *)
Definition xloss (ls : bool) (x : list (list Q)) (t : @tdata Q) (e : nat) : nat * (exn + Q) := (S e, inr (f (the x))).
Definition xgrad (x : list (list Q)) (l : Q) (e : nat) : nat * (exn + list Q) := (e, inr [df (the x)]).
Variables (ls : lsfn) (k : Z).
Definition xg : grp Q := qgrp ls k 10.
Definition xmod (n : nat) (x : list (list Q)) (a : opt Q) (file : option (list (list Q))) : @run Q nat * (exn + unit) :=
  optimize_mod Qops xloss xgrad None (fun x e => (e, x)) (fun x e => (e, inr x)) xg false true (fun _ => false) qmax qsum qwolfe 20 n x a O file.
Definition xfd (n : nat) (x : list (list Q)) (a : opt Q) (file : option (list (list Q))) : @run Q nat * (exn + unit) :=
  optimize_fd Qops xloss xgrad None true qmax qsum qwolfe 20 n x a O file.
(** torch's optimizer as gradient descent: one evaluation, then x - df x *)
Definition xdescent (a : opt Q) (x0 : list (list Q)) (seen : list (list (list Q) * Q * list Q)) : list (list Q) + (exn + list (list Q) * opt Q) :=
  match seen with
  | [] => inl x0
  | (_, _, v) :: _ => inr (inr (map (fun p => vsub Qops p v) x0, a))
  end.
Definition xad (n : nat) (x : list (list Q)) : @run Q nat * (exn + unit) :=
  optimize_ad Qops (1000000000 # 1) xloss xgrad None 20 xdescent (1 # 1000000000) n x (opt0 xg) O None.
Definition xsgd (n : nat) (x : list (list Q)) : @run Q nat * (exn + unit) :=
  optimize_sgd Qops xloss xgrad None 20 xdescent (1 # 1000000000) n x (opt0 xg) O None.
Definition losses (r : @run Q nat * (exn + unit)) : list (bool * Q) := map (fun c => (fst (fst c), e_loss c)) (w_evals (p_w (r_s (fst r)))).
Definition file_of (r : @run Q nat * (exn + unit)) : option (list (list Q)) := w_file (p_w (r_s (fst r))).
Definition cks (r : @run Q nat * (exn + unit)) : list (Z * Q * list (list Q)) := map (fun c => (c_epoch c, c_loss c, c_params c)) (r_ck (fst r)).
End R.

(** x^2/2; and one that overshoots: gradient steps from 1 lead to 1 - 3 = -2, with a larger loss *)
Definition par (x : Q) : Q := fdiv Qops (fmul Qops x x) (2 # 1).
Definition par' (x : Q) : Q := x.
Definition over' (x : Q) : Q := fmul Qops (3 # 1) x.
(** a slope with a kink: a little lower at 1 than at 1/2 *)
Definition kink (x : Q) : Q :=
  if Qle_bool x (0 # 1) then 10 # 1 else if Qle_bool x (3 # 4) then fsub Qops (10 # 1) (6 # 100000) else fsub Qops (10 # 1) (9 # 100000).
Definition kink' (x : Q) : Q := if Qle_bool x (0 # 1) then -1 # 1 else 0 # 1.
(** 1 at the origin, 5 elsewhere *)
Definition trap (x : Q) : Q := if Qeq_bool x (0 # 1) then 1 # 1 else 5 # 1.
Definition trap' (x : Q) : Q := if Qeq_bool x (0 # 1) then 1 # 1 else 0 # 1.
