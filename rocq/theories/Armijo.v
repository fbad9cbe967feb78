(** Model of the backtracking line searches [_scalar_search_armijo],
    optim/lbfgs_modified.py:13-82 and optim/sgd_modified.py:9-61.  The loss along the search
    direction is a stateful computation that may raise.  The two while loops take fuel; running
    out of it is an error that C23 excludes. *)
From Verif Require Import Base Flt.
Open Scope st_scope.
Open Scope list_scope.

Section Armijo.
Context {F : Type} (o : fops F) {St : Type}.
Notation "x + y" := (fadd o x y).
Notation "x - y" := (fsub o x y).
Notation "x * y" := (fmul o x y).
Notation "x / y" := (fdiv o x y).

(** [x <= phi0 + c1*alpha*derphi0] with the default c1=1e-4, lbfgs_modified.py:29,39,62 *)
Definition c1 : F := fq o 1 10000.
Definition sufficient (phi0 derphi0 alpha x : F) : bool := fle o x (phi0 + c1 * alpha * derphi0).

(** minimizer of the quadratic interpolant, lbfgs_modified.py:34 *)
Definition quad_step (phi0 derphi0 alpha0 phi_a0 : F) : F :=
  fneg o derphi0 * (alpha0 * alpha0) / fq o 2 1 / (phi_a0 - phi0 - derphi0 * alpha0).

(** minimizer of the cubic interpolant, lbfgs_modified.py:48-56 *)
Definition cubic_step (phi0 derphi0 alpha0 phi_a0 alpha1 phi_a1 : F) : F :=
  let factor := (alpha0 * alpha0) * (alpha1 * alpha1) * (alpha1 - alpha0) in
  let a := ((alpha0 * alpha0) * (phi_a1 - phi0 - derphi0 * alpha1) -
            (alpha1 * alpha1) * (phi_a0 - phi0 - derphi0 * alpha0)) / factor in
  let b := (fneg o (alpha0 * alpha0 * alpha0) * (phi_a1 - phi0 - derphi0 * alpha1) +
            (alpha1 * alpha1 * alpha1) * (phi_a0 - phi0 - derphi0 * alpha0)) / factor in
  (fneg o b + fsqrt o (fabs o (b * b - fq o 3 1 * a * derphi0))) / (fq o 3 1 * a).

(** the safeguard, lbfgs_modified.py:65-66 *)
Definition safeguard (alpha1 alpha2 : F) : F :=
  if flt o (alpha1 / fq o 2 1) (alpha1 - alpha2) || flt o (fq o 1 1 - alpha2 / alpha1) (fq o 96 100)
  then alpha1 / fq o 2 1 else alpha2.

(** what the search returns: the caught NoFixedPointError or [True] *)
Inductive ls_status := LsTrue | LsNoFixedPoint.
Record ls_result := { ls_stat : ls_status; ls_alpha : option F; ls_loss : option F }.

Variable phi : F -> M St F.
(** whether the import of NoFixedPointError succeeded; otherwise the name is bound to an
    exception instance (lbfgs_modified.py:8) and the except clause raises TypeError *)
Variable yastn : bool.

(** one evaluation inside the try block *)
Definition eval_phi {A} (alpha : F) (handler : M St A) (k : F -> M St A) : M St A := fun s =>
  match phi alpha s with
  | (s', inr v) => k v s'
  | (s', inl e) =>
      if yastn then match e with NoFixedPoint => handler s' | _ => (s', inl e) end
      else (s', inl (Py TypeError))
  end.

(** the except clause, lbfgs_modified.py:72-79; None and zero are false *)
Definition truthy (a : option F) : option F :=
  match a with Some x => if feq o x (fq o 0 1) then None else Some x | None => None end.
Definition handler (alpha0 : F) (alpha1 alpha2 : option F) : M St ls_result :=
  ret {| ls_stat := LsNoFixedPoint;
         ls_alpha := Some (match truthy alpha2 with Some x => x | None =>
                           match truthy alpha1 with Some x => x | None => alpha0 end end);
         ls_loss := None |}.

Section Search.
Variables (phi0 derphi0 amin : F).

(** lbfgs_modified.py:47-71, 82.  The value paired with the halved step is that of the
    rejected step. *)
Fixpoint armijo_loop (fuel : nat) (alpha0 phi_a0 alpha1 phi_a1 : F) : M St ls_result :=
  match fuel with
  | O => raise (Py OutOfFuel)
  | S fuel' =>
      if flt o amin alpha1 then
        let alpha2 := cubic_step phi0 derphi0 alpha0 phi_a0 alpha1 phi_a1 in
        eval_phi alpha2 (handler alpha0 (Some alpha1) (Some alpha2)) (fun phi_a2 =>
        if sufficient phi0 derphi0 alpha2 phi_a2
        then ret {| ls_stat := LsTrue; ls_alpha := Some alpha2; ls_loss := Some phi_a2 |}
        else armijo_loop fuel' alpha1 phi_a1 (safeguard alpha1 alpha2) phi_a2)
      else ret {| ls_stat := LsTrue; ls_alpha := None; ls_loss := Some phi_a1 |}
  end.

(** lbfgs_modified.py:23-45 *)
Definition armijo (fuel : nat) (alpha0 : F) : M St ls_result :=
  eval_phi alpha0 (handler alpha0 None None) (fun phi_a0 =>
  if sufficient phi0 derphi0 alpha0 phi_a0
  then ret {| ls_stat := LsTrue; ls_alpha := Some alpha0; ls_loss := Some phi_a0 |}
  else
    let alpha1 := quad_step phi0 derphi0 alpha0 phi_a0 in
    eval_phi alpha1 (handler alpha0 (Some alpha1) None) (fun phi_a1 =>
    if sufficient phi0 derphi0 alpha1 phi_a1
    then ret {| ls_stat := LsTrue; ls_alpha := Some alpha1; ls_loss := Some phi_a1 |}
    else armijo_loop fuel alpha0 phi_a0 alpha1 phi_a1)).

(** sgd_modified.py:37-61: the same without exception handling *)
Fixpoint sgd_armijo_loop (fuel : nat) (alpha0 phi_a0 alpha1 phi_a1 : F) : M St (option F * F) :=
  match fuel with
  | O => raise (Py OutOfFuel)
  | S fuel' =>
      if flt o amin alpha1 then
        let alpha2 := cubic_step phi0 derphi0 alpha0 phi_a0 alpha1 phi_a1 in
        phi_a2 <-- phi alpha2 ;;
        if sufficient phi0 derphi0 alpha2 phi_a2 then ret (Some alpha2, phi_a2)
        else sgd_armijo_loop fuel' alpha1 phi_a1 (safeguard alpha1 alpha2) phi_a2
      else ret (None, phi_a1)
  end.

(** sgd_modified.py:19-30 *)
Definition sgd_armijo (fuel : nat) (alpha0 : F) : M St (option F * F) :=
  phi_a0 <-- phi alpha0 ;;
  if sufficient phi0 derphi0 alpha0 phi_a0 then ret (Some alpha0, phi_a0)
  else
    let alpha1 := quad_step phi0 derphi0 alpha0 phi_a0 in
    phi_a1 <-- phi alpha1 ;;
    if sufficient phi0 derphi0 alpha1 phi_a1 then ret (Some alpha1, phi_a1)
    else sgd_armijo_loop fuel alpha0 phi_a0 alpha1 phi_a1.
End Search.
End Armijo.
