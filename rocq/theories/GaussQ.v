(** Gaussian rationals, for examples over a field with a conjugation. *)
From Coq Require Import QArith Qcanon Ring Field Bool List.
Import ListNotations.
Open Scope Qc_scope.

Definition gq := (Qc * Qc)%type.
Definition gq_z : gq := (0, 0).
Definition gq_o : gq := (1, 0).
Definition gq_add (x y : gq) : gq := (fst x + fst y, snd x + snd y).
Definition gq_mul (x y : gq) : gq := (fst x * fst y - snd x * snd y, fst x * snd y + snd x * fst y).
Definition gq_opp (x : gq) : gq := (- fst x, - snd x).
Definition gq_sub (x y : gq) : gq := gq_add x (gq_opp y).
Definition gq_cj (x : gq) : gq := (fst x, - snd x).
Definition gq_n (x : gq) : Qc := fst x * fst x + snd x * snd x.
Definition gq_inv (x : gq) : gq := (fst x / gq_n x, - snd x / gq_n x).
Definition gq_div (x y : gq) : gq := gq_mul x (gq_inv y).
Definition gq_eqb (x y : gq) : bool := Qc_eq_bool (fst x) (fst y) && Qc_eq_bool (snd x) (snd y).

Lemma gq_eqb_true x y : gq_eqb x y = true -> x = y.
Proof. intros H. apply andb_prop in H. destruct H as [H1 H2]. destruct x, y. cbn in *. f_equal; now apply Qc_eq_bool_correct. Qed.
Lemma gq_eqb_false x y : gq_eqb x y = false -> x <> y.
Proof. intros H E. subst. unfold gq_eqb, Qc_eq_bool in H. destruct (Qc_eq_dec (fst y) (fst y)); [|congruence]. destruct (Qc_eq_dec (snd y) (snd y)); [discriminate|congruence]. Qed.
Lemma sq_nonneg (a : Qc) : 0 <= a * a.
Proof. destruct (Qclt_le_dec a 0) as [H|H].
  - replace (a * a) with ((- a) * (- a)) by ring. assert (H' : 0 <= - a). { apply Qclt_le_weak in H. apply Qcopp_le_compat in H. exact H. }
    rewrite <- (Qcmult_0_l (- a)). apply Qcmult_le_compat_r; assumption.
  - rewrite <- (Qcmult_0_l a) at 1. apply Qcmult_le_compat_r; assumption. Qed.
Lemma gq_n_zero x : gq_n x = 0 -> x = gq_z.
Proof. unfold gq_n. intros H. destruct x as [a b]. cbn in H.
  assert (A := sq_nonneg a). assert (B := sq_nonneg b).
  assert (Ha : a * a = 0). { apply Qcle_antisym; [|exact A]. rewrite <- H. rewrite <- (Qcplus_0_r (a * a)) at 1. apply Qcplus_le_compat; [apply Qcle_refl|exact B]. }
  assert (Hb : b * b = 0). { rewrite Ha in H. rewrite Qcplus_0_l in H. exact H. }
  apply Qcmult_integral in Ha, Hb. unfold gq_z. f_equal; tauto. Qed.
Lemma gq_field : field_theory gq_z gq_o gq_add gq_mul gq_sub gq_opp gq_div gq_inv eq.
Proof. constructor.
  - constructor; try (intros [a b] [c d] [e f]); try (intros [a b] [c d]); try (intros [a b]); unfold gq_z, gq_o, gq_add, gq_mul, gq_sub, gq_opp, gq_add, gq_opp; cbn; f_equal; ring.
  - intros H. discriminate (f_equal fst H).
  - reflexivity.
  - intros p Hp. assert (N : gq_n p <> 0) by (intros H; apply Hp, gq_n_zero, H). destruct p as [a b]. unfold gq_mul, gq_inv, gq_o. cbn [fst snd]. unfold gq_n in *. cbn [fst snd] in *.
    f_equal; field; exact N. Qed.
(** numbers *)
Definition gq_int (a b : Z) : gq := (Q2Qc (inject_Z a), Q2Qc (inject_Z b)).
Definition gq_half (a b : Z) : gq := (Q2Qc (a # 2), Q2Qc (b # 2)).
