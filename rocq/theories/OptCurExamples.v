(** Runs of ad_optim_lbfgs_mod.py on f(x) = x^4/4. *)
From Coq Require Import Reals QArith Lra.
From Verif Require Import Base Flt Armijo Lbfgs LbfgsSpec LbfgsExamples OptRun OptRunSpec OptRunExamples OptCurSpec.
Open Scope list_scope.

Definition qmul (a b : Q) : Q := fmul Qops a b.
Definition quart (x : list (list Q)) : Q := fdiv Qops (qmul (qmul (the x) (the x)) (qmul (the x) (the x))) (4 # 1).
Definition quart' (x : list (list Q)) : list Q := [qmul (the x) (qmul (the x) (the x))].
Definition qneg (x : list (list Q)) : list (list Q) := map (map (fneg Qops)) x.
(** the evaluation number [k] fails with [ex] *)
Definition yloss (k : nat) (ex : exn) (ls : bool) (x : list (list Q)) (t : @tdata Q) (e : nat) : nat * (exn + Q) :=
  (S e, if Nat.eqb e k then inl ex else inr (quart x)).
Definition ygrad (x : list (list Q)) (l : Q) (e : nat) : nat * (exn + list Q) := (e, inr (quart' x)).
(** noise moves to 7; the gauge transformation and the post-processing change the sign *)
Definition yrun (ls : lsfn) (per_epoch : Z) (k : nat) (ex : exn) (regauge post : bool) (n : nat) : @run Q nat * (exn + unit) :=
  optimize_mod Qops (yloss k ex) ygrad (if post then Some (fun x e => (e, inr (qneg x))) else None) (fun x e => (e, [[7 # 1]])) (fun x e => (e, inr (qneg x)))
    (xg ls per_epoch) regauge true (fun _ => false) qmax qsum qwolfe 20 n [[3 # 1]] (opt0 (xg ls per_epoch)) O None.
Definition ycks (r : @run Q nat * (exn + unit)) : list (list (list Q) * option (list Q)) :=
  map (fun c => (c_params c, m_pg (o_mem (c_opt c)))) (r_ck (fst r)).

Lemma yloss_answers k ex : ex <> EnvErr -> answers_loss (yloss k ex) quart.
Proof. intros H ls x t e. cbn. destruct (Nat.eqb e k); [right; exists ex|left]; auto. Qed.
Lemma ygrad_answers : answers_grad ygrad quart'.
Proof. intros x l e. left. reflexivity. Qed.
Lemma qwolfe_strict : strict qwolfe.
Proof. intros t d loss g gtd [|[[a l] v] seen] l' v' t' n; cbn; [discriminate|]. intros H. injection H as <- <- <- _. left. reflexivity. Qed.
Lemma quart_even x : quart (qneg x) = quart x.
Proof.
  assert (H : the (qneg x) = fneg Qops (the x)).
  { unfold the, qneg. rewrite <- concat_map. destruct (concat x); reflexivity. }
  unfold quart. rewrite H. unfold qmul, Qops; cbn [fmul fneg fdiv]. generalize (the x). intros q.
  assert (K : Qred (- q * - q) = Qred (q * q)) by (apply Qred_complete; ring).
  rewrite K. reflexivity.
Qed.

Lemma regauge_refuted : exists k a b c,
  ycks (yrun LSwolfe 1 k EnvErr true false 3) = [a; b; c] /\ snd b = None /\ snd c <> Some (quart' (fst b)) /\ (quart (fst b) < quart (fst c))%Q.
Proof. exists 2%nat. eexists _, _, _. split; [vm_compute; reflexivity|]. vm_compute. repeat split. congruence. Qed.
Lemma displaced_refuted : exists k a b c,
  ycks (yrun LSwolfe 1 k EnvErr false false 3) = [a; b; c] /\ snd b = snd c /\ fst b <> fst c /\ snd c <> Some (quart' (fst b)).
Proof. exists 2%nat. eexists _, _, _. split; [vm_compute; reflexivity|]. vm_compute. repeat split; congruence. Qed.
Lemma post_refuted : exists a b,
  ycks (yrun LSwolfe 1 100 EnvErr false true 2) = [a; b] /\ snd b <> Some (quart' (fst a)) /\ (quart (fst a) < quart (fst b))%Q.
Proof. eexists _, _. split; [vm_compute; reflexivity|]. vm_compute. repeat split; congruence. Qed.
