(** Property C23: the backtracking line searches. *)
From Coq Require Import Reals QArith.
From Verif Require Import Base Flt Armijo ArmijoSpec ArmijoProofs.
Open Scope list_scope.

(** in every arithmetic and for every loss, stateful and raising or not: an accepted step was
    the last one evaluated, it satisfies the condition, and the loss reported is its loss *)
Theorem C23_accepted_was_evaluated : forall (F : Type) (o : fops F) (St : Type) (phi : F -> M St F)
  (yastn : bool) (phi0 der amin : F) (fuel : nat) (a : F) (s s' : St) (t : F) (v : option F),
  armijo o phi yastn phi0 der amin fuel a s =
    (s', inr {| ls_stat := LsTrue; ls_alpha := Some t; ls_loss := v |}) ->
  exists s1 w, v = Some w /\ phi t s1 = (s', inr w) /\
    fle o w (fadd o phi0 (fmul o (fmul o (fq o 1 10000) t) der)) = true.
Proof. exact @accepted. Qed.
Print Assumptions C23_accepted_was_evaluated.

(** After NoFixedPointError no loss is reported, and the reported step, unless zero, is the one that failed. *)
Theorem C23_failed_step : forall (F : Type) (o : fops F) (St : Type) (phi : F -> M St F)
  (yastn : bool) (phi0 der amin : F) (fuel : nat) (a : F) (s s' : St) (t v : option F),
  armijo o phi yastn phi0 der amin fuel a s =
    (s', inr {| ls_stat := LsNoFixedPoint; ls_alpha := t; ls_loss := v |}) ->
  v = None /\ exists s1 a', phi a' s1 = (s', inl NoFixedPoint) /\ (feq o a' (fq o 0 1) = false -> t = Some a').
Proof. exact @failed. Qed.
Print Assumptions C23_failed_step.

Open Scope R_scope.

(** with real losses the accepted step is positive and not larger than the initial one *)
Theorem C23_accepted_step : forall phi0 der : R, der < 0 -> forall f yastn amin, finite_values f ->
  forall fuel a0 tr tr' t v, 0 < a0 ->
  armijo Eops (recorded f) yastn (Fin phi0) (Fin der) (Fin amin) fuel (Fin a0) tr =
    (tr', inr {| ls_stat := LsTrue; ls_alpha := Some t; ls_loss := v |}) ->
  exists r w, t = Fin r /\ v = Some (Fin w) /\ 0 < r <= a0 /\ decreases_enough phi0 der r w /\
    exists tr1, tr' = tr1 ++ [(Fin r, Fin w)].
Proof. exact armijo_positive. Qed.
Print Assumptions C23_accepted_step.

(** whatever the losses (also infinite or not-a-number) there are at most 2+k evaluations when
    the initial step is at most amin*2^k *)
Theorem C23_terminates : forall phi0 der : R, der < 0 -> forall f yastn amin k fuel a0 tr,
  (k < fuel)%nat -> 0 < amin -> 0 < a0 <= amin * 2 ^ k ->
  let x := armijo Eops (recorded f) yastn (Fin phi0) (Fin der) (Fin amin) fuel (Fin a0) tr in
  (length (fst x) <= length tr + (2 + k))%nat /\
  (snd x = inl (Py OutOfFuel) -> exists tr' a, f tr' a = inl (Py OutOfFuel)).
Proof. exact armijo_terminates. Qed.
Print Assumptions C23_terminates.

(** the search of the SGD optimizer is the same search *)
Theorem C23_sgd_same : forall (F : Type) (o : fops F) (St : Type) (phi : F -> M St F) (yastn : bool)
  (phi0 der amin : F), (forall a s e, snd (phi a s) <> inl e) -> forall fuel a s,
  sgd_armijo o phi phi0 der amin fuel a s = of_ls phi0 (armijo o phi yastn phi0 der amin fuel a s).
Proof. exact @sgd_same. Qed.
Print Assumptions C23_sgd_same.

Theorem C23_sgd_accepted_step : forall phi0 der amin (g : trace -> ext -> R) fuel a0 tr tr' t v, der < 0 -> 0 < a0 ->
  sgd_armijo Eops (recorded (fun tr a => inr (Fin (g tr a)))) (Fin phi0) (Fin der) (Fin amin) fuel (Fin a0) tr =
    (tr', inr (Some t, v)) ->
  exists r w, t = Fin r /\ v = Fin w /\ 0 < r <= a0 /\ decreases_enough phi0 der r w /\
    exists tr1, tr' = tr1 ++ [(Fin r, Fin w)].
Proof. exact sgd_positive. Qed.
Print Assumptions C23_sgd_accepted_step.

(** an infinite loss at the first trial makes the search evaluate and accept the step 0 *)
Theorem C23_infinite_loss_refuted : exists f,
  finite_values (fun tr a => match f tr a with inr PInf => inl (Py ValueError) | x => x end) /\
  (forall tr, f tr (Fin 0) = inr (Fin 5)) /\
  armijo Eops (recorded f) true (Fin 5) (Fin (-1)) (Fin 1) 3 (Fin 1) [] =
    ([(Fin 1, PInf); (Fin 0, Fin 5)], inr {| ls_stat := LsTrue; ls_alpha := Some (Fin 0); ls_loss := Some (Fin 5) |}).
Proof. exact zero_step. Qed.
Print Assumptions C23_infinite_loss_refuted.

(** x^2 - x from 0 with initial step 2: the quadratic interpolant gives 1/2 *)
Example C23_example :
  armijo Qops (fun a n => (S n, inr (Qred (a * a - a)%Q))) true 0%Q (-(1))%Q (1#100)%Q 5 2%Q O =
  (2%nat, inr {| ls_stat := LsTrue; ls_alpha := Some (1#2)%Q; ls_loss := Some (-1#4)%Q |}).
Proof. vm_compute. reflexivity. Qed.
(** a loss that increases everywhere: two steps are tried and the search gives up *)
Example C23_example_failure :
  armijo Qops (fun a n => (S n, inr (Qred (a * a + a)%Q))) true 0%Q (-(1))%Q (1#2)%Q 9 1%Q O =
  (2%nat, inr {| ls_stat := LsTrue; ls_alpha := None; ls_loss := Some (7#36)%Q |}).
Proof. vm_compute. reflexivity. Qed.
