(** Specification: matrices as functions of two indices, spin operators by their algebra. *)
From Verif Require Import Base Tensor.
From Coq Require Import Reals.
Open Scope R_scope.

Definition mel (t : tensor R) (i j : nat) : R := match tget t [i; j] with Some v => v | None => 0 end.
Definition mel4 (t : tensor R) (i a j b : nat) : R := match tget t [i; a; j; b] with Some v => v | None => 0 end.
Fixpoint rsum (n : nat) (f : nat -> R) : R := match n with O => 0 | S k => rsum k f + f k end.

Section Mat.
Variable m : nat.
Notation mat := (nat -> nat -> R).
Definition mmul (A B : mat) : mat := fun i j => rsum m (fun k => A i k * B k j).
Definition madd (A B : mat) : mat := fun i j => A i j + B i j.
Definition msub (A B : mat) : mat := fun i j => A i j - B i j.
Definition mscale (c : R) (A : mat) : mat := fun i j => c * A i j.
Definition mtrans (A : mat) : mat := fun i j => A j i.
Definition mid : mat := fun i j => if Nat.eqb i j then 1 else 0.
Definition comm (A B : mat) : mat := msub (mmul A B) (mmul B A).
Definition meq (A B : mat) : Prop := forall i j, (i < m)%nat -> (j < m)%nat -> A i j = B i j.

(** spin S = (m-1)/2: [Sz,S±] = ±S±, [S+,S-] = 2 Sz, S- the adjoint of S+, Casimir S(S+1),
    Sz diagonal with the eigenvalues S, S-1, ..., -S in this order *)
Definition spin : R := (INR m - 1) / 2.
Definition spin_algebra (Sz Sp Sm : mat) : Prop :=
  meq (comm Sz Sp) Sp /\ meq (comm Sz Sm) (mscale (-1) Sm) /\ meq (comm Sp Sm) (mscale 2 Sz) /\
  meq Sm (mtrans Sp) /\
  meq (madd (mmul Sz Sz) (mscale (1/2) (madd (mmul Sp Sm) (mmul Sm Sp)))) (mscale (spin * (spin + 1)) mid) /\
  meq Sz (fun i j => if Nat.eqb i j then spin - INR i else 0).

(** R R = ±1, R Sz R^T = -Sz, R S+ R^T = -S- *)
Definition bipartite_rotation (Rm Sz Sp Sm : mat) : Prop :=
  meq (mmul Rm Rm) (mscale ((-1) ^ (m - 1)) mid) /\ meq (mmul Rm (mtrans Rm)) mid /\
  meq (mmul (mmul Rm Sz) (mtrans Rm)) (mscale (-1) Sz) /\
  meq (mmul (mmul Rm Sp) (mtrans Rm)) (mscale (-1) Sm) /\
  meq (mmul (mmul Rm Sm) (mtrans Rm)) (mscale (-1) Sp).

(** x Sz.Sz + y Sx.Sx + z Sy.Sy with Sx = (S+ + S-)/2 and Sy = -i/2 (S+ - S-) *)
Definition exchange (x y z : R) (Sz Sp Sm : mat) (i a j b : nat) : R :=
  x * (Sz i j * Sz a b) + y * ((Sp i j + Sm i j) / 2 * ((Sp a b + Sm a b) / 2))
    - z * ((Sp i j - Sm i j) / 2 * ((Sp a b - Sm a b) / 2)).
Definition meq4 (A B : nat -> nat -> nat -> nat -> R) : Prop :=
  forall i a j b, (i < m)%nat -> (a < m)%nat -> (j < m)%nat -> (b < m)%nat -> A i a j b = B i a j b.
Definition hermitian4 (A : nat -> nat -> nat -> nat -> R) : Prop := meq4 A (fun i a j b => A j b i a).
End Mat.
