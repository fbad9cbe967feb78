From Coq Require Import QArith.
From Verif Require Import Base BaseLemmas Flt Armijo Lbfgs LbfgsProofs2 Sgd SgdSpec.
Open Scope list_scope.

Section P.
Context {F : Type} (o : fops F) {W : Type}.
Notation sst := (sst (F:=F) (W:=W)).
Variable clo : list (list F) -> W -> W * (exn + F * list F).
Variable clo_ls : list (list F) -> W -> W * (exn + F).
Variable g : sgrp (F:=F).
Variable fuel : nat.

Lemma direction_spec fg (s : sst) :
  let dg := decayed o g (q_x s) fg in let buf := velocity o g (q_buf s) dg in
  sgd_direction o g fg s = ({| q_x := q_x s; q_buf := buf; q_w := q_w s |},
    inr (momentum_direction o g buf dg, uses_momentum o g && negb (sg_nest g))).
Proof.
  cbv zeta. unfold sgd_direction, mbind at 1, sget at 1. fold (decayed o g (q_x s) fg).
  unfold velocity, momentum_direction, uses_momentum. destruct (nonzero o (sg_mom g)); cbn.
  - destruct (sg_nest g); reflexivity.
  - destruct s; reflexivity.
Qed.

(** the trial evaluations keep parameters and buffer *)
Lemma sdir_keeps x d t (s s' : sst) v : q_x s = x -> sdir_eval o clo_ls x d t s = (s', inr v) ->
  q_x s' = x /\ q_buf s' = q_buf s /\ exists y, add_grad o t d x = Ok y /\ exists w, clo_ls y (q_w s) = (w, inr v).
Proof.
  intros Hx. unfold sdir_eval, sadd, sset, scall, mbind, sget, lift, sput_x, ret. rewrite Hx.
  destruct (add_grad o t d x) as [y|e] eqn:E; [|discriminate]. cbn.
  destruct (clo_ls y (q_w s)) as [w [e|l]] eqn:Ec; [discriminate|]. cbn. intros H.
  match type of H with (?z, inr ?q) = _ => assert (s' = z) by congruence; assert (v = q) by congruence end. subst s' v. cbn.
  split; [apply set_param_same; eapply add_grad_length; exact E|]. split; [reflexivity|]. eauto.
Qed.

Definition settled (x : list (list F)) (b : option (list F)) (s : sst) : Prop := q_x s = x /\ q_buf s = b.

(** what an accepted step of the search satisfies *)
Definition good_step (d : list F) (x : list (list F)) (b : option (list F)) (loss gtd : F) (r : option F * F) (s : sst) : Prop :=
  settled x b s /\ forall t, fst r = Some t -> sufficient o loss gtd t (snd r) = true /\
    exists y w w', add_grad o t d x = Ok y /\ clo_ls y w = (w', inr (snd r)).

Lemma armijo_good d x b loss gtd am n : forall a (s s' : sst) r, settled x b s ->
  sgd_armijo o (sdir_eval o clo_ls x d) loss gtd am n a s = (s', inr r) -> good_step d x b loss gtd r s'.
Proof.
  assert (EV : forall t (s s' : sst) v, settled x b s -> sdir_eval o clo_ls x d t s = (s', inr v) ->
    settled x b s' /\ exists y w w', add_grad o t d x = Ok y /\ clo_ls y w = (w', inr v)).
  { intros t s s' v [S1 S2] H. apply sdir_keeps in H; [|exact S1]. destruct H as (H1 & H2 & y & H3 & w & H4).
    split; [split; congruence|]. eauto 8. }
  assert (OK : forall t v (s : sst), settled x b s -> (exists y w w', add_grad o t d x = Ok y /\ clo_ls y w = (w', inr v)) ->
    sufficient o loss gtd t v = true -> good_step d x b loss gtd (Some t, v) s).
  { intros t v s S E Su. split; [exact S|]. cbn. intros t' Ht. assert (t' = t) by congruence. subst t'. auto. }
  assert (L : forall n a0 q0 a1 q1 (s s' : sst) r, settled x b s ->
    sgd_armijo_loop o (sdir_eval o clo_ls x d) loss gtd am n a0 q0 a1 q1 s = (s', inr r) -> good_step d x b loss gtd r s').
  { clear n. induction n; intros a0 q0 a1 q1 s s' r S; cbn [sgd_armijo_loop]; [discriminate|].
    destruct (flt o am a1).
    - unfold mbind. cbv zeta. destruct (sdir_eval o clo_ls x d _ s) as [s1 [e|v]] eqn:E1; [discriminate|].
      destruct (EV _ _ _ _ S E1) as [S1 X1]. destruct (sufficient _ _ _ _ v) eqn:Es.
      + unfold ret. intros H. assert (s' = s1) by congruence. match type of H with (_, inr ?q) = _ => assert (r = q) by congruence end. subst. apply OK; auto.
      + intros H. eapply IHn; [exact S1|exact H].
    - unfold ret. intros H. assert (s' = s) by congruence. assert (r = (None, q1)) by congruence. subst. split; [exact S|]. cbn. discriminate. }
  intros a s s' r S. unfold sgd_armijo, mbind. destruct (sdir_eval o clo_ls x d a s) as [s1 [e|v]] eqn:E1; [discriminate|].
  destruct (EV _ _ _ _ S E1) as [S1 X1]. destruct (sufficient o loss gtd a v) eqn:Es.
  { unfold ret. intros H. assert (s' = s1) by congruence. match type of H with (_, inr ?q) = _ => assert (r = q) by congruence end. subst. apply OK; auto. }
  cbv zeta. destruct (sdir_eval o clo_ls x d (quad_step o loss gtd a v) s1) as [s2 [e|v2]] eqn:E2; [discriminate|].
  destruct (EV _ _ _ _ S1 E2) as [S2 X2]. destruct (sufficient o loss gtd (quad_step o loss gtd a v) v2) eqn:Es2.
  { unfold ret. intros H. assert (s' = s2) by congruence. match type of H with (_, inr ?q) = _ => assert (r = q) by congruence end. subst. apply OK; auto. }
  intros H. eapply L; [exact S2|exact H].
Qed.

Lemma first_call (s s1 : sst) lg : scall clo s = (s1, inr lg) ->
  exists w, clo (q_x s) (q_w s) = (w, inr lg) /\ s1 = {| q_x := q_x s; q_buf := q_buf s; q_w := w |}.
Proof. unfold scall. destruct (clo _ _) as [w r]. intros H. exists w. split; congruence. Qed.

Lemma step_fixed (s s' : sst) loss : sg_ls g = LSnone \/ sg_ls g = LSdefault ->
  sgd_step o clo clo_ls g fuel s = (s', inr loss) ->
  exists fg w, clo (q_x s) (q_w s) = (w, inr (loss, fg)) /\
    let dg := decayed o g (q_x s) fg in
    q_buf s' = velocity o g (q_buf s) dg /\ q_w s' = w /\
    add_grad o (fneg o (sg_lr g)) (momentum_direction o g (velocity o g (q_buf s) dg) dg) (q_x s) = Ok (q_x s').
Proof.
  intros L. unfold sgd_step, mbind at 1. destruct (scall clo s) as [s1 [e|[l fg]]] eqn:E; [discriminate|].
  apply first_call in E. destruct E as (w & Ec & ->). cbn [fst snd]. cbv zeta. unfold mbind at 1. rewrite direction_spec. cbn [q_x q_buf q_w].
  intros H. assert (H' : mbind (sadd o (fneg o (sg_lr g)) (momentum_direction o g (velocity o g (q_buf s) (decayed o g (q_x s) fg)) (decayed o g (q_x s) fg))) (fun _ => ret l)
     {| q_x := q_x s; q_buf := velocity o g (q_buf s) (decayed o g (q_x s) fg); q_w := w |} = (s', inr loss)) by (destruct L as [L|L]; rewrite L in H; exact H).
  clear H. unfold mbind, sadd, mbind, sget, lift, sput_x, ret in H'. cbn [q_x] in H'.
  destruct (add_grad o _ _ (q_x s)) as [y|e] eqn:Ea; [|discriminate]. cbn in H'.
  match type of H' with (?z, inr ?q) = _ => assert (s' = z) by congruence; assert (loss = q) by congruence end. subst s' loss.
  exists fg, w. cbn. auto.
Qed.

Lemma step_searched (s s' : sst) loss : sg_ls g = LSbacktracking ->
  sgd_step o clo clo_ls g fuel s = (s', inr loss) ->
  exists fg w, clo (q_x s) (q_w s) = (w, inr (loss, fg)) /\
    let dg := decayed o g (q_x s) fg in
    let d := vscale o (fneg o (fq o 1 1)) (momentum_direction o g (velocity o g (q_buf s) dg) dg) in
    q_buf s' = (if uses_momentum o g && negb (sg_nest g) then Some d else velocity o g (q_buf s) dg) /\
    exists t v w1 w2, add_grad o t d (q_x s) = Ok (q_x s') /\ clo_ls (q_x s') w1 = (w2, inr v) /\
      sufficient o loss (vdot o fg d) t v = true.
Proof.
  intros L. unfold sgd_step, mbind at 1. destruct (scall clo s) as [s1 [e|[l fg]]] eqn:E; [discriminate|].
  apply first_call in E. destruct E as (w & Ec & ->). cbn [fst snd]. cbv zeta. unfold mbind at 1. rewrite direction_spec. cbn [q_x q_buf q_w].
  rewrite L. set (dg := decayed o g (q_x s) fg). set (d := vscale o (fneg o (fq o 1 1)) _).
  set (bf := if uses_momentum o g && negb (sg_nest g) then Some d else velocity o g (q_buf s) dg).
  match goal with |- mbind ?m ?k ?s0 = _ -> _ => assert (R : mbind m k s0 = k tt {| q_x := q_x s; q_buf := bf; q_w := w |}) end.
  { unfold bf, mbind. destruct (uses_momentum o g && negb (sg_nest g)); reflexivity. }
  rewrite R. clear R. unfold mbind at 1, sget at 1. cbn [q_x]. unfold mbind at 1.
  match goal with |- context [sgd_armijo o (sdir_eval o clo_ls (q_x s) d) l ?gtd ?am ?n ?a ?s0] =>
    pose proof (armijo_good d (q_x s) bf l gtd am n a s0) as AG;
    destruct (sgd_armijo o (sdir_eval o clo_ls (q_x s) d) l gtd am n a s0) as [s2 [e|r]] end; [discriminate|].
  destruct (AG s2 r (conj eq_refl eq_refl) eq_refl) as [[G1 G2] G3].
  destruct (fst r) as [t|] eqn:Er; [|discriminate]. destruct (G3 t eq_refl) as (Su & y & w1 & w2 & Ea & Ev).
  unfold mbind, sadd, mbind, sget, lift, sput_x, ret. rewrite G1, Ea. cbn. intros H.
  match type of H with (?z, inr ?q) = _ => assert (s' = z) by congruence; assert (loss = q) by congruence end. subst s' loss.
  exists fg, w. split; [exact Ec|]. cbn. split; [exact G2|]. exists t, (snd r), w1, w2. auto.
Qed.

(** the buffer after any number of steps *)
Lemma run_buffer (s s' : sst) gs :
  uses_momentum o g && negb (sg_nest g) = false \/ sg_ls g = LSnone \/ sg_ls g = LSdefault ->
  nonzero o (sg_wd g) = false -> sruns o g clo clo_ls fuel s gs s' -> q_buf s' = fold_left (velocity o g) gs (q_buf s).
Proof.
  intros H Hw R. induction R as [s|s s1 s' loss w fg gs Ec Es R IH]; [reflexivity|]. cbn [fold_left]. rewrite IH. f_equal.
  assert (D : forall x, decayed o g x fg = fg) by (intros; unfold decayed; rewrite Hw; reflexivity).
  assert (SF : sg_ls g = LSnone \/ sg_ls g = LSdefault -> q_buf s1 = velocity o g (q_buf s) fg).
  { intros L. apply step_fixed in Es; [|exact L]. destruct Es as (fg' & w' & Ec' & B & _).
    assert (fg' = fg) by congruence. subst fg'. rewrite D in B. exact B. }
  destruct H as [H|H]; [|apply SF; exact H].
  destruct (sg_ls g) eqn:L; auto.
  - apply step_searched in Es; [|exact L]. destruct Es as (fg' & w' & Ec' & B & _). assert (fg' = fg) by congruence. subst fg'.
    rewrite H, D in B. exact B.
  - exfalso. revert Es. unfold sgd_step, mbind at 1. destruct (scall clo s) as [s2 [e|[l f]]]; [discriminate|]. cbv zeta. unfold mbind at 1.
    rewrite direction_spec, L. discriminate.
  - exfalso. revert Es. unfold sgd_step, mbind at 1. destruct (scall clo s) as [s2 [e|[l f]]]; [discriminate|]. cbv zeta. unfold mbind at 1.
    rewrite direction_spec, L. discriminate.
Qed.
End P.
