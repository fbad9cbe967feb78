From Verif Require Import Base BaseLemmas Flt Armijo Lbfgs LbfgsSpec LbfgsProofs OptRun OptRunSpec OptRunProofs.
Open Scope list_scope.

(** ** a step depends on the world only through the answers of the closures *)
Section Sim.
Context {F : Type} (o : fops F) {W : Type}.
Variables maxabs sumabs : list F -> F.
Variable clo clo_g : list (list F) -> W -> W * (exn + F * list F).
Variable clo_ls : list (list F) -> W -> W * (exn + F).
Variable wolfe : F -> list F -> F -> list F -> F -> list (F * F * list F) -> F + (F * list F * F * Z).
Variable yastn : bool.
Variable fuel : nat.
Notation pst := (@pst F W).
Definition rel (s s' : pst) : Prop := p_x s = p_x s' /\ p_opt s = p_opt s'.
Definition out {A} (Q : A -> A -> Prop) (a b : exn + A) : Prop :=
  match a, b with inl e, inl e' => e = e' | inr a, inr b => Q a b | _, _ => False end.
Definition sim {A} (Q : A -> A -> Prop) (m m' : M pst A) : Prop :=
  forall s s', rel s s' -> rel (fst (m s)) (fst (m' s')) /\ out Q (snd (m s)) (snd (m' s')).
Definition fixed {A} (c : list (list F) -> W -> W * (exn + A)) : Prop := forall x w w', snd (c x w) = snd (c x w').
Hypothesis Pclo : fixed clo. Hypothesis Pclo_g : fixed clo_g. Hypothesis Pclo_ls : fixed clo_ls.

Lemma sim_ret A (Q : A -> A -> Prop) (a b : A) : Q a b -> sim Q (ret a) (ret b). Proof. intros q s s' H. split; assumption. Qed.
Lemma sim_ret_eq A (a : A) : sim eq (ret a) (ret a). Proof. apply sim_ret. reflexivity. Qed.
Lemma sim_raise A (Q : A -> A -> Prop) e : sim (A := A) Q (raise e) (raise e). Proof. intros s s' H. split; [exact H|reflexivity]. Qed.
Lemma sim_bind A B (Q : A -> A -> Prop) (R : B -> B -> Prop) m m' k k' : sim Q m m' -> (forall a b, Q a b -> sim R (k a) (k' b)) -> sim R (mbind m k) (mbind m' k').
Proof.
  intros Hm Hk s s' H. unfold mbind. destruct (Hm s s' H) as [H1 H2]. destruct (m s) as [t [e|a]], (m' s') as [t' [e'|b]]; cbn in *; try contradiction.
  - split; [exact H1|exact H2].
  - apply Hk; assumption.
Qed.
Lemma sim_bind_eq A B (R : B -> B -> Prop) m m' (k k' : A -> M pst B) : sim eq m m' -> (forall a, sim R (k a) (k' a)) -> sim R (mbind m k) (mbind m' k').
Proof. intros Hm Hk. eapply sim_bind; [exact Hm|]. intros a b ->. apply Hk. Qed.
Lemma sim_call A (c : list (list F) -> W -> W * (exn + A)) : fixed c -> sim eq (call c) (call c).
Proof.
  intros Hc s s' [H1 H2]. unfold call. rewrite H1. specialize (Hc (p_x s') (p_w s) (p_w s')).
  destruct (c (p_x s') (p_w s)) as [w [e|v]], (c (p_x s') (p_w s')) as [w' [e'|v']]; cbn in *; try discriminate; (split; [split; cbn; congruence|congruence]).
Qed.
Lemma sim_get_x : sim eq get_x get_x. Proof. intros s s' [H1 H2]. split; [split; assumption|exact H1]. Qed.
Lemma sim_get_opt : sim eq get_opt get_opt. Proof. intros s s' [H1 H2]. split; [split; assumption|exact H2]. Qed.
Lemma sim_put_x x : sim eq (put_x x) (put_x x). Proof. intros s s' [H1 H2]. split; [split; [reflexivity|exact H2]|reflexivity]. Qed.
Lemma sim_put_opt x : sim eq (put_opt x) (put_opt x). Proof. intros s s' [H1 H2]. split; [split; [exact H1|reflexivity]|reflexivity]. Qed.
Hint Resolve sim_ret_eq sim_raise sim_bind_eq sim_call sim_get_x sim_get_opt sim_put_x sim_put_opt : sim.
Lemma sim_put_niter n : sim eq (put_niter n) (put_niter n). Proof. unfold put_niter. auto with sim. Qed.
Lemma sim_put_mem n : sim eq (put_mem n) (put_mem n). Proof. unfold put_mem. auto with sim. Qed.
Lemma sim_put_al n : sim eq (put_al n) (put_al n). Proof. unfold put_al. auto with sim. Qed.
Lemma sim_lift A (r : res A) : sim eq (lift r) (lift r). Proof. destruct r; [apply sim_ret_eq|apply sim_raise]. Qed.
Hint Resolve sim_put_niter sim_put_mem sim_put_al sim_lift : sim.
Lemma sim_add t d : sim eq (add_grad_m o t d) (add_grad_m o t d). Proof. unfold add_grad_m. auto 10 with sim. Qed.
Lemma sim_set x : sim eq (set_param_m x) (set_param_m x). Proof. unfold set_param_m. auto 10 with sim. Qed.
Hint Resolve sim_add sim_set : sim.
Lemma sim_dir x d t : sim eq (dir_eval o clo_ls x d t) (dir_eval o clo_ls x d t). Proof. unfold dir_eval. auto 10 with sim. Qed.
Lemma sim_dir_g x d t : sim eq (dir_eval_g o clo_g x d t) (dir_eval_g o clo_g x d t). Proof. unfold dir_eval_g. auto 10 with sim. Qed.
Hint Resolve sim_dir sim_dir_g : sim.
Lemma sim_eval A (phi : F -> M pst F) y alpha (h : M pst A) k : (forall a, sim eq (phi a) (phi a)) -> sim eq h h -> (forall v, sim eq (k v) (k v)) ->
  sim eq (eval_phi phi y alpha h k) (eval_phi phi y alpha h k).
Proof.
  intros Hp Hh Hk s s' H. unfold eval_phi. destruct (Hp alpha s s' H) as [H1 H2].
  destruct (phi alpha s) as [t [e|a]], (phi alpha s') as [t' [e'|b]]; cbn in *; try contradiction; subst.
  - destruct y; [destruct e'|]; try (split; [exact H1|reflexivity]). apply Hh; assumption.
  - apply Hk; assumption.
Qed.
Lemma sim_armijo (phi : F -> M pst F) y p0 der am : (forall a, sim eq (phi a) (phi a)) -> forall n a,
  sim eq (armijo o phi y p0 der am n a) (armijo o phi y p0 der am n a).
Proof.
  intros Hp.
  assert (L : forall n a0 q0 a1 q1, sim eq (armijo_loop o phi y p0 der am n a0 q0 a1 q1) (armijo_loop o phi y p0 der am n a0 q0 a1 q1)).
  { induction n; intros; cbn [armijo_loop]; [auto with sim|]. destruct (flt o am a1); [|auto with sim].
    cbv zeta. apply sim_eval; [exact Hp|unfold handler; auto with sim|]. intros v. destruct (sufficient _ _ _ _ _); auto with sim. }
  intros. unfold armijo. apply sim_eval; [exact Hp|unfold handler; auto with sim|]. intros v. destruct (sufficient _ _ _ _ _); [auto with sim|].
  cbv zeta. apply sim_eval; [exact Hp|unfold handler; auto with sim|]. intros v2. destruct (sufficient _ _ _ _ _); [auto with sim|]. apply L.
Qed.
Lemma sim_bt y hv n x d eps loss gtd : forall t nl, sim eq (bt_loop o clo_ls y fuel hv n x d eps loss gtd t nl) (bt_loop o clo_ls y fuel hv n x d eps loss gtd t nl).
Proof.
  induction n; intros; cbn [bt_loop]; auto with sim. destruct (flt o eps t); auto with sim.
  apply sim_bind_eq; [apply sim_armijo; auto with sim|]. intros r. destruct (ls_stat r); auto with sim. destruct (ls_alpha r); auto with sim.
Qed.
Lemma sim_wolfe n x d t loss g gtd : forall seen, sim eq (wolfe_loop o clo_g wolfe n x d t loss g gtd seen) (wolfe_loop o clo_g wolfe n x d t loss g gtd seen).
Proof. induction n; intros; cbn [wolfe_loop]; auto with sim. destruct (wolfe _ _ _ _ _ _); auto with sim. Qed.
Lemma sim_need p : sim eq (need_t p) (need_t p).
Proof. unfold need_t. destruct (fst p); auto with sim. Qed.
Hint Resolve sim_bt sim_wolfe sim_need : sim.
Notation line_search := (line_search o maxabs clo clo_g clo_ls wolfe yastn fuel).
Lemma sim_ls g last d t loss fg gtd : sim eq (line_search g last d t loss fg gtd) (line_search g last d t loss fg gtd).
Proof.
  unfold line_search. destruct (g_ls g).
  1,2: apply sim_bind_eq; [auto with sim|]; intros _; destruct last; auto with sim.
  - auto 20 with sim.
  - apply sim_bind_eq; [auto with sim|]. intros x. apply sim_bind_eq; [|auto with sim].
    intros s s' H. destruct (sim_wolfe fuel x d t loss fg gtd [] s s' H) as [H1 H2].
    destruct (wolfe_loop o clo_g wolfe fuel x d t loss fg gtd [] s) as [s1 [e|r]], (wolfe_loop o clo_g wolfe fuel x d t loss fg gtd [] s') as [s2 [e'|r']];
      cbn [out fst snd] in H1, H2; try contradiction; subst.
    + destruct yastn; [|split; [exact H1|reflexivity]]. destruct e'; try (split; [exact H1|reflexivity]).
      match goal with |- rel (fst (?m s1)) _ /\ _ => assert (Hm : sim eq m m) by auto 20 with sim; exact (Hm s1 s2 H1) end.
    + destruct r' as [[[nl ng] t'] ev]. split; [exact H1|reflexivity].
  - auto with sim.
Qed.
Lemma sim_direction shared l fg : sim eq (direction (W := W) o shared l fg) (direction o shared l fg).
Proof.
  unfold direction. apply sim_bind_eq; [auto with sim|]. intros a. destruct (o_niter a =? 1)%Z; [auto with sim|].
  destruct (m_pg l), (m_d l), (m_t l), (m_dirs l), (m_stps l), (m_ro l), (m_H l); auto with sim.
  apply sim_bind_eq; [auto with sim|]. intros [[[? ?] ?] ?]. apply sim_bind_eq; [destruct shared; auto with sim|]. intros _.
  apply sim_bind_eq; [auto with sim|]. intros _. apply sim_bind_eq; [auto with sim|]. intros [? ?]. auto 10 with sim.
Qed.

Lemma sim_iteration_eq n shared pgs l ev loss fg nl ng :
  sim eq (iteration o maxabs sumabs clo clo_g clo_ls wolfe yastn fuel n shared pgs l ev loss fg nl ng)
         (iteration o maxabs sumabs clo clo_g clo_ls wolfe yastn fuel n shared pgs l ev loss fg nl ng).
Proof.
  unfold iteration. apply sim_bind_eq; [auto with sim|]. intros a. apply sim_bind_eq; [auto with sim|]. intros _.
  apply sim_bind_eq; [apply sim_direction|]. intros [l' sh']. apply sim_bind_eq; [auto with sim|]. intros a1.
  apply sim_bind_eq; [match goal with |- sim _ (if ?b then _ else _) _ => destruct b; auto with sim end|]. intros _. cbv zeta.
  match goal with |- sim _ (if ?b then _ else _) _ => destruct b; [auto with sim|] end.
  apply sim_bind_eq; [|auto with sim]. apply sim_ls.
Qed.
Lemma sim_iterations : forall k n shared pgs l ev loss fg nl ng,
  sim eq (iterations o maxabs sumabs clo clo_g clo_ls wolfe yastn fuel k n shared pgs l ev loss fg nl ng)
         (iterations o maxabs sumabs clo clo_g clo_ls wolfe yastn fuel k n shared pgs l ev loss fg nl ng).
Proof.
  induction k; intros; cbn [iterations]; [auto with sim|]. apply sim_bind_eq; [apply sim_iteration_eq|]. intros i. destruct (i_break i); auto with sim.
Qed.
Lemma sim_step_eq nl ng : sim eq (step_2c o maxabs sumabs clo clo_g clo_ls wolfe yastn fuel nl ng) (step_2c o maxabs sumabs clo clo_g clo_ls wolfe yastn fuel nl ng).
Proof.
  unfold step_2c. apply sim_bind_eq; [destruct nl, ng; auto with sim|]. intros [[loss fg] ev]. apply sim_bind_eq; [auto with sim|].
  intros a. destruct (fle o _ _); [auto with sim|]. apply sim_bind_eq; [|intros [[l' nl'] ng']; auto with sim]. apply sim_iterations.
Qed.

(** the loss passed in does not matter without a gradient; no gradient comes out *)
Definition no_wolfe (g : grp F) : bool := match g_ls g with LSwolfe => false | _ => true end.
Lemma ls_nograd g d t loss fg gtd (s s' : pst) r : no_wolfe g = true -> line_search g true d t loss fg gtd s = (s', inr r) -> lo_grad r = None.
Proof.
  intros NW. unfold line_search. unfold no_wolfe in NW. destruct (g_ls g); try discriminate.
  1,2: unfold mbind; destruct (add_grad_m o t d s) as [s1 [e|[]]]; [discriminate|]; intros H; injection H as _ <-; reflexivity.
  unfold mbind at 1. cbn [get_x]. unfold mbind at 1. destruct (bt_loop _ _ _ _ _ _ _ _ _ _ _ _ _ s) as [s1 [e|p]]; [discriminate|].
  unfold mbind at 1. destruct (need_t p s1) as [s2 [e|tl]]; [discriminate|].
  unfold mbind at 1. destruct (add_grad_m o (fst tl) d s2) as [s3 [e|[]]]; [discriminate|]. intros H; injection H as _ <-; reflexivity.
Qed.
Definition Qi (i j : it (F := F)) : Prop := i_mem i = i_mem j /\ i_grad i = None /\ i_grad j = None.
Notation iteration := (iteration o maxabs sumabs clo clo_g clo_ls wolfe yastn fuel).
Definition grp_is (g : grp F) {A} (Q : A -> A -> Prop) (m m' : M pst A) : Prop :=
  forall s s', rel s s' -> o_grp (p_opt s) = g -> rel (fst (m s)) (fst (m' s')) /\ o_grp (p_opt (fst (m s))) = g /\ out Q (snd (m s)) (snd (m' s')).
Lemma grp_bind g A B (Q : A -> A -> Prop) (R : B -> B -> Prop) m m' k k' : grp_is g Q m m' -> (forall a b, Q a b -> grp_is g R (k a) (k' b)) -> grp_is g R (mbind m k) (mbind m' k').
Proof.
  intros Hm Hk s s' H G. unfold mbind. destruct (Hm s s' H G) as (H1 & H2 & H3). destruct (m s) as [t [e|a]], (m' s') as [t' [e'|b]]; cbn in *; try contradiction.
  - repeat split; auto; apply H1.
  - apply Hk; assumption.
Qed.
(** the parameter group is never written; [pinv] with the trivial property of the world *)
Lemma grp_sim g A (Q : A -> A -> Prop) m m' : sim Q m m' -> pinv (fun _ => True) g m -> grp_is g Q m m'.
Proof. intros H1 H2 s s' R G. destruct (H1 s s' R). destruct (H2 s (conj I G)). auto. Qed.

Lemma grp_get g B (R : B -> B -> Prop) k k' : (forall a, o_grp a = g -> grp_is g R (k a) (k' a)) -> grp_is g R (mbind get_opt k) (mbind get_opt k').
Proof. intros H s s' [R1 R2] G. unfold mbind. cbn [get_opt]. rewrite <- R2. apply (H (p_opt s) G); [split; assumption|exact G]. Qed.

Lemma sim_iteration g shared pgs l ev loss fg nl nl' : no_wolfe g = true -> g_max_iter g = 1%Z ->
  grp_is g Qi (iteration 1 shared pgs l ev loss fg nl None) (iteration 1 shared pgs l ev loss fg nl' None).
Proof.
  intros NW M1. unfold iteration.
  apply grp_bind with (Q := eq); [apply grp_sim; [auto with sim|apply pinv_get_opt]|]. intros a ? <-.
  apply grp_bind with (Q := eq); [apply grp_sim; [auto with sim|apply pinv_put_niter]|]. intros _ _ _.
  apply grp_bind with (Q := eq); [apply grp_sim; [apply sim_direction|apply pinv_direction]|]. intros [l1 sh1] ? <-.
  apply grp_get. intros a1 G.
  apply grp_bind with (Q := eq).
  { apply grp_sim; [match goal with |- sim _ (if ?b then _ else _) _ => destruct b; auto with sim end|].
    match goal with |- pinv _ _ (if ?b then _ else _) => destruct b; [apply pinv_put_mem|apply pinv_ret] end. }
  intros _ _ _. cbv zeta. match goal with |- grp_is _ _ (if ?b then _ else _) _ => destruct b end.
  { apply grp_sim; [apply sim_ret; repeat split|apply pinv_ret]. }
  rewrite G, M1. cbn [Z.eqb Pos.eqb].
  intros t t' RT GT. unfold mbind.
  destruct (sim_ls g true (match m_d l1 with Some d => d | None => [] end) (first_step o sumabs (o_niter a1) (g_lr g) fg) loss fg
    (vdot o fg (match m_d l1 with Some d => d | None => [] end)) t t' RT) as [RT' OT].
  assert (GG : o_grp (p_opt (fst (line_search g true (match m_d l1 with Some d => d | None => [] end) (first_step o sumabs (o_niter a1) (g_lr g) fg) loss fg
    (vdot o fg (match m_d l1 with Some d => d | None => [] end)) t))) = g).
  { refine (proj2 (pinv_ls o maxabs clo clo_g clo_ls wolfe yastn fuel (fun _ => True) g _ _ true _ _ _ _ _ _ t _)); try (intros; exact I); [discriminate|split; [exact I|exact GT]]. }
  destruct (line_search g true _ _ _ _ _ t) as [u [e|r]] eqn:L1, (line_search g true _ _ _ _ _ t') as [u' [e'|r']] eqn:L2; cbn [fst snd out] in *; try contradiction.
  - auto.
  - subst r'. split; [exact RT'|]. split; [exact GG|]. cbn. repeat split; cbn; exact (ls_nograd _ _ _ _ _ _ _ _ _ NW L1).
Qed.
Notation step_2c := (step_2c o maxabs sumabs clo clo_g clo_ls wolfe yastn fuel).
Definition Qs (a b : F * option F * option (list F)) : Prop := fst (fst a) = fst (fst b) /\ snd a = None /\ snd b = None.
Lemma sim_step g nl nl' : no_wolfe g = true -> g_max_iter g = 1%Z -> grp_is g Qs (step_2c nl None) (step_2c nl' None).
Proof.
  intros NW M1. unfold step_2c.
  apply grp_bind with (Q := eq).
  { assert (K : grp_is g eq (mbind (call clo) (fun lg => ret (fst lg, snd lg, 1%Z))) (mbind (call clo) (fun lg => ret (fst lg, snd lg, 1%Z)))).
    { apply grp_sim; [auto with sim|]. apply pinv_bind; [apply pinv_call; auto|]. intros. apply pinv_ret. }
    destruct nl, nl'; exact K. }
  intros [[loss fg] ev] ? <-.
  apply grp_get. intros a G.
  destruct (fle o (maxabs fg) _); [apply grp_sim; [apply sim_ret; repeat split|apply pinv_ret]|].
  rewrite G, M1. cbn [Z.to_nat Pos.to_nat Pos.iter_op Nat.add].
  apply grp_bind with (Q := fun a b => fst (fst a) = fst (fst b) /\ snd a = None /\ snd b = None).
  - change (Pos.to_nat 1) with 1%nat. cbn [iterations].
    apply grp_bind with (Q := Qi); [apply sim_iteration; assumption|]. intros i j (Q1 & Q2 & Q3).
    destruct (i_break i), (i_break j); (apply grp_sim; [apply sim_ret; cbn; auto|apply pinv_ret]).
  - intros [[l1 n1] g1] [[l2 n2] g2] (Q1 & Q2 & Q3). cbn in Q1, Q2, Q3. subst.
    apply grp_sim; [|apply pinv_bind; [apply pinv_put_mem|intros; apply pinv_ret]].
    apply sim_bind_eq; [auto with sim|]. intros _. apply sim_ret. repeat split.
Qed.
End Sim.
