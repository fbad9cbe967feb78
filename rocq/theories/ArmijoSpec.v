(** Specification of line searches. *)
From Coq Require Import Reals.
From Verif Require Import Base Flt.
Open Scope list_scope.

(** an arbitrary loss along a direction that records what was evaluated: each value may depend
    on everything evaluated before (the environment is reused), and evaluations may raise *)
Definition trace := list (ext * ext).
Definition recorded (f : trace -> ext -> exn + ext) (a : ext) : M trace ext := fun tr =>
  match f tr a with inr v => (tr ++ [(a, v)], inr v) | inl e => (tr, inl e) end.

(** every value returned is a real number *)
Definition finite_values (f : trace -> ext -> exn + ext) : Prop :=
  forall tr a v, f tr a = inr v -> exists r, v = Fin r.

(** the sufficient decrease condition on real numbers *)
Definition decreases_enough (phi0 slope t v : R) : Prop := (v <= phi0 + / 10000 * t * slope)%R.
