(** Specification: two spins, their total spin, and operators acting on their states. *)
From Verif Require Import Base Tensor Su2Spec.
From Coq Require Import Reals.
Open Scope R_scope.

Section Two.
Variable m : nat.
(** the amplitudes of a state of two spins of dimension m *)
Notation state := (nat -> nat -> R).
Notation mat := (nat -> nat -> R).
Definition seq2 (v w : state) : Prop := forall i a, (i < m)%nat -> (a < m)%nat -> v i a = w i a.
Definition sadd (v w : state) : state := fun i a => v i a + w i a.
Definition sscale (c : R) (v : state) : state := fun i a => c * v i a.
Definition zero : state := fun _ _ => 0.
(** an operator on the first, on the second spin, the sum of both *)
Definition on1 (A : mat) (v : state) : state := fun i a => rsum m (fun j => A i j * v j a).
Definition on2 (A : mat) (v : state) : state := fun i a => rsum m (fun b => A a b * v i b).
Definition tot (A : mat) (v : state) : state := sadd (on1 A v) (on2 A v).
(** the square of the total spin: Sz^2 + (S+ S- + S- S+)/2 *)
Definition total_spin2 (Sz Sp Sm : mat) (v : state) : state :=
  sadd (tot Sz (tot Sz v)) (sscale (1/2) (sadd (tot Sp (tot Sm v)) (tot Sm (tot Sp v)))).
(** the state has total spin J *)
Definition has_spin (Sz Sp Sm : mat) (J : nat) (v : state) : Prop :=
  seq2 (total_spin2 Sz Sp Sm v) (sscale (INR J * (INR J + 1)) v).
(** the action of a tensor with the legs s1 s2 s1' s2' *)
Definition act (O : nat -> nat -> nat -> nat -> R) (v : state) : state :=
  fun i a => rsum m (fun j => rsum m (fun b => O i a j b * v j b)).
(** S1.S2 *)
Definition dot_spins (Sz Sp Sm : mat) (v : state) : state :=
  sadd (on1 Sz (on2 Sz v)) (sscale (1/2) (sadd (on1 Sp (on2 Sm v)) (on1 Sm (on2 Sp v)))).
(** c1 X + c2 X^2 + c3 X^3 + c4 X^4 for X = S1.S2 *)
Definition quartic (Sz Sp Sm : mat) (c1 c2 c3 c4 : R) (v : state) : state :=
  let X := dot_spins Sz Sp Sm in
  sadd (sscale c1 (X v)) (sadd (sscale c2 (X (X v))) (sadd (sscale c3 (X (X (X v)))) (sscale c4 (X (X (X (X v))))))).
(** the projector on total spin J: the identity on states of spin J, zero on states of other spins *)
Definition projector (Sz Sp Sm : mat) (J : nat) (P : state -> state) : Prop :=
  forall K v, has_spin Sz Sp Sm K v -> (K < m)%nat -> seq2 (P v) (if Nat.eqb K J then v else zero).
End Two.
