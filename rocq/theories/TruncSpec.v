(** Specification of truncation at complete multiplets. *)
From Coq Require Import Reals.
From Verif Require Import Base Trunc.
Open Scope R_scope.
Open Scope list_scope.

(** descending sequence of magnitudes *)
Definition descending (m : list R) : Prop :=
  (forall i j, (i <= j < length m)%nat -> nth j m 0 <= nth i m 0) /\ (forall x, In x m -> 0 <= x).

(** value [i] is not negligible and separated from the next one by a relative gap above eps *)
Definition separated (eps abs_tol : R) (m : list R) (i : nat) : Prop :=
  abs_tol <= nth i m 0 /\ eps * (nth i m 0 + tiny) < nth i m 0 - nth (i + 1) m 0.
(** the same with "at least eps" *)
Definition separated_weakly (eps abs_tol : R) (m : list R) (i : nat) : Prop :=
  abs_tol <= nth i m 0 /\ eps * (nth i m 0 + tiny) <= nth i m 0 - nth (i + 1) m 0.

(** [n] values out of the leading [chi] are kept *)
Definition good_cut (eps abs_tol : R) (m : list R) (chi n : nat) : Prop :=
  (1 <= n <= chi)%nat /\
  ((n = chi /\ (separated_weakly eps abs_tol m (chi - 1) \/ forall i, (i < chi)%nat -> ~ separated eps abs_tol m i)) \/
   ((n < chi)%nat /\ ~ separated_weakly eps abs_tol m (chi - 1) /\ separated eps abs_tol m (n - 1) /\
     forall i, (n <= i < chi)%nat -> ~ separated eps abs_tol m i)).

Definition padded {A} (z : A) (l : list A) (n chi : nat) : list A := firstn n l ++ repeat z (chi - n).
