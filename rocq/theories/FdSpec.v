(** Specification of the finite-difference gradient. *)
From Verif Require Import Base Flt.
Open Scope list_scope.

Section Spec.
Context {F : Type} (o : fops F) (eps : F).
(** v + eps at component i *)
Fixpoint bump_vec (i : nat) (v : list F) : list F :=
  match v, i with
  | [], _ => []
  | a :: v', O => fadd o a eps :: map (fun b => fadd o b (fq o 0 1)) v'
  | a :: v', S i' => fadd o a (fq o 0 1) :: bump_vec i' v'
  end.
(** component i of coefficient k shifted *)
Fixpoint shifted (k i : nat) (x : list (list F)) : list (list F) :=
  match x, k with
  | [], _ => []
  | v :: x', O => bump_vec i v :: x'
  | v :: x', S k' => v :: shifted k' i x'
  end.
(** all (coefficient, component) pairs in order *)
Definition components (x : list (list F)) : list (nat * nat) :=
  concat (map (fun k => map (fun i => (k, i)) (seq 0 (length (nth k x [])))) (seq 0 (length x))).
(** difference quotients *)
Definition quotients (f : list (list F) -> F) (loss0 : F) (x : list (list F)) : list (list F) :=
  map (fun k => map (fun i => fdiv o (fsub o (f (shifted k i x)) loss0) eps) (seq 0 (length (nth k x [])))) (seq 0 (length x)).
End Spec.

(** a loss of the coefficients only *)
Definition pure_loss {F : Type} (f : list (list F) -> F) : list (list F) -> unit -> unit * (exn + F) := fun x w => (w, inr (f x)).
