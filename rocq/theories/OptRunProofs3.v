From Coq Require Import Reals QArith Lra Lqa.
From Verif Require Import Base BaseLemmas Flt Armijo Lbfgs LbfgsSpec LbfgsProofs OptRun OptRunSpec OptRunProofs OptRunProofs2.
Open Scope list_scope.

(** ** comparisons of scalars *)
Lemma Rltb_iff a b : Rltb a b = true <-> (a < b)%R.
Proof. unfold Rltb. destruct (Rlt_dec a b); split; intros; auto; discriminate. Qed.
Lemma Rltb_niff a b : Rltb a b = false <-> (b <= a)%R.
Proof. unfold Rltb. destruct (Rlt_dec a b); split; intros; auto; try discriminate; Lra.lra. Qed.
Lemma comparison_R : comparison Rops.
Proof.
  repeat split; cbn; intros *; rewrite ?Rltb_iff, ?Rltb_niff; Lra.lra.
Qed.
Lemma comparison_E : comparison Eops.
Proof.
  repeat split; cbn.
  - intros [x| | |]; cbn; auto. apply Rltb_niff. Lra.lra.
  - intros [x| | |] [y| | |] [z| | |]; cbn; auto; try discriminate. rewrite !Rltb_iff. Lra.lra.
  - intros [x| | |] [y| | |] [z| | |] [u| | |]; cbn; auto; try discriminate; rewrite ?Rltb_iff, ?Rltb_niff; Lra.lra.
Qed.
Lemma Qltb_iff a b : Qltb a b = true <-> (a < b)%Q.
Proof.
  unfold Qltb. destruct (Qle_bool b a) eqn:H; cbn; [apply Qle_bool_iff in H|].
  - split; intros; [discriminate|]. Lqa.lra.
  - split; intros; [|reflexivity]. apply Qnot_le_lt. intros K. apply Qle_bool_iff in K. congruence.
Qed.
Lemma Qltb_niff a b : Qltb a b = false <-> (b <= a)%Q.
Proof.
  unfold Qltb. destruct (Qle_bool b a) eqn:H; cbn; [apply Qle_bool_iff in H; tauto|].
  split; intros; [discriminate|]. apply Qle_bool_iff in H0. congruence.
Qed.
Lemma comparison_Q : comparison Qops.
Proof. repeat split; cbn; intros *; rewrite ?Qltb_iff, ?Qltb_niff; Lqa.lra. Qed.

(** ** the file after a run *)
Section File.
Context {F : Type} (o : fops F) {E : Type}.
Notation params := (list (list F)).
Variable pinf : F.
Variable loss_fn : bool -> params -> @tdata F -> E -> E * (exn + F).
Variable gradient : params -> F -> E -> E * (exn + list F).
Variable post_proc : option (params -> E -> E * (exn + params)).
Variable noise : params -> E -> E * params.
Variable gauge : params -> E -> E * (exn + params).
Variable g : grp F.
Variables (regauge yastn : bool) (status_antivar : E -> bool).
Variables maxabs sumabs : list F -> F.
Variable wolfe : F -> list F -> F -> list F -> F -> list (F * F * list F) -> F + (F * list F * F * Z).
Variable fuel : nat.
Variable strategy : opt F -> params -> list (params * F * list F) -> params + (exn + params * opt F).
Hypothesis CMP : comparison o.
Notation IA := (IA o loss_fn). Notation IS := (IS o loss_fn). Notation IB := (IB o loss_fn).
Definition world_of (r : @run F E * (exn + unit)) : @world F E := p_w (r_s (fst r)).

Lemma IA_env m f w e : IA m f w -> IA m f (set_env w e). Proof. exact (fun H => H). Qed.
Lemma IA_reset m f w : IA m f w -> IA m f (reset_w o w). Proof. exact (fun H => H). Qed.
Lemma IA_0 m f e : IA m f (world0 o m e f).
Proof. split; [split; [constructor|reflexivity]|left; repeat split; constructor]. Qed.
Lemma IB_reset f w : IB (big o) f w -> IB (big o) f (reset_w o w).
Proof.
  intros (G & H0 & H). split; [exact G|]. split; [exact H0|]. destruct H as [(H1 & H2 & H3 & H4)|H]; [left|right; exact H].
  repeat split; auto.
Qed.

Lemma file_torch sgd tol m mx k ep x a e f :
  let r := epochs_torch o loss_fn gradient post_proc fuel strategy sgd tol mx k ep {| r_s := {| p_x := x; p_opt := a; p_w := world0 o m e f |}; r_ck := [] |} in
  genuine loss_fn (world_of r) /\ holds_best o m (starts_of (w_evals (world_of r))) f (w_file (world_of r)).
Proof.
  intros r. assert (H : IA m f (world_of r)).
  { unfold world_of, r. apply epochs_torch_inv; [apply IA_env|apply IA_reset|intros; apply IA_record; auto|apply IA_0]. }
  split; [apply H|]. eapply IA_holds. exact H.
Qed.
(** torch closures never run inside a line search *)
Lemma all_starts sgd tol m mx k ep x a e f :
  let r := epochs_torch o loss_fn gradient post_proc fuel strategy sgd tol mx k ep {| r_s := {| p_x := x; p_opt := a; p_w := world0 o m e f |}; r_ck := [] |} in
  starts_of (w_evals (world_of r)) = w_evals (world_of r).
Proof.
  intros r. refine (proj2 (_ : IS m f (world_of r))).
  unfold world_of, r. apply epochs_torch_inv; [intros w0 e0 H; exact H|intros w0 H; exact H|intros; apply IS_record; auto|].
  split; [apply IA_0|reflexivity].
Qed.
Lemma file_fd mx x a e f : 
  let r := optimize_fd o loss_fn gradient post_proc yastn maxabs sumabs wolfe fuel mx x a e f in
  genuine loss_fn (world_of r) /\ holds_best o (big o) (starts_of (w_evals (world_of r))) f (w_file (world_of r)).
Proof.
  intros r. assert (H : IA (big o) f (world_of r)).
  { unfold world_of, r, optimize_fd. apply epochs_fd_inv; [apply IA_env|apply IA_reset|intros; apply IA_record; auto|intros; apply IA_ls; auto|apply IA_0]. }
  split; [apply H|]. eapply IA_holds. exact H.
Qed.
Lemma file_mod_nols mx x a e f : searches (o_grp a) = false -> searches g = false ->
  let r := optimize_mod o loss_fn gradient post_proc noise gauge g regauge yastn status_antivar maxabs sumabs wolfe fuel mx x a e f in
  genuine loss_fn (world_of r) /\ holds_best o (big o) (w_evals (world_of r)) f (w_file (world_of r)).
Proof.
  intros S1 S2 r. assert (H : one_of g (IS (big o) f) (o_grp a) (r_s (fst r))).
  { unfold r, optimize_mod. apply epochs_mod_inv; [intros w0 e0 H; exact H|intros w0 H; exact H|intros; apply IS_record; auto| |].
    - intros [S|S]; congruence.
    - split; [split; [apply IA_0|reflexivity]|left; reflexivity]. }
  destruct H as [[H1 H2] _]. split; [apply H1|]. unfold world_of. rewrite <- H2. eapply IA_holds. exact H1.
Qed.
Lemma file_mod mx x a e f : 
  let r := optimize_mod o loss_fn gradient post_proc noise gauge g regauge yastn status_antivar maxabs sumabs wolfe fuel mx x a e f in
  genuine loss_fn (world_of r) /\ holds_as_good o (big o) (w_evals (world_of r)) f (w_file (world_of r)).
Proof.
  intros r. assert (H : one_of g (IB (big o) f) (o_grp a) (r_s (fst r))).
  { unfold r, optimize_mod. apply epochs_mod_inv; [intros w0 e0 H; exact H|intros w0; apply IB_reset|intros; apply IB_record; auto|intros; apply IB_ls; auto|].
    split; [split; [split; [constructor|reflexivity]|split; [constructor|left; repeat split; constructor]]|left; reflexivity]. }
  destruct H as [(G & _ & H) _]. split; [exact G|]. destruct H as [(H1 & H2 & H3 & H4)|(c & H1 & H2 & H3 & H4 & _)]; [left|right; exists c]; auto.
Qed.
End File.
