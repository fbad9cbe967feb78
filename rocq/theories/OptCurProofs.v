From Verif Require Import Base BaseLemmas Flt Armijo Lbfgs LbfgsSpec LbfgsProofs LbfgsProofs2 OptRun OptRunSpec OptRunProofs OptRunProofs2 OptRunProofs5 OptRunProofs6 OptCurSpec.
Open Scope st_scope.
Open Scope list_scope.

(** ** a step from current loss and gradient *)
Section Step.
Context {F : Type} (o : fops F) {W : Type}.
Notation pst := (@pst F W).
Notation params := (list (list F)).
Variables maxabs sumabs : list F -> F.
Variable clo clo_g : params -> W -> W * (exn + F * list F).
Variable clo_ls : params -> W -> W * (exn + F).
Variable wolfe : F -> list F -> F -> list F -> F -> list (F * F * list F) -> F + (F * list F * F * Z).
Variable yastn : bool.
Variable fuel : nat.
Variables (f : params -> F) (df : params -> list F).
Definition tells (c : params -> W -> W * (exn + F * list F)) : Prop := forall x w a, snd (c x w) = inr a -> a = (f x, df x).
Hypothesis T1 : tells clo. Hypothesis T2 : tells clo_g.
Hypothesis HW : honest (fq o 0 1) wolfe.
Hypothesis Z0 : forall a b, fadd o a (fmul o (fq o 0 1) b) = a.

Definition hoare {A} (P : pst -> Prop) (Q : A -> pst -> Prop) (m : M pst A) : Prop :=
  forall s, P s -> match m s with (s', inr a) => Q a s' | (_, inl _) => True end.
Lemma hoare_bind A B P (Q : A -> pst -> Prop) (R : B -> pst -> Prop) m k :
  hoare P Q m -> (forall a, hoare (Q a) R (k a)) -> hoare P R (mbind m k).
Proof. intros Hm Hk s Hs. unfold mbind. specialize (Hm s Hs). destruct (m s) as [s' [e|a]]; [exact I|]. apply Hk, Hm. Qed.
Lemma hoare_ret A (P : pst -> Prop) (Q : A -> pst -> Prop) a : (forall s, P s -> Q a s) -> hoare P Q (ret a).
Proof. intros H s Hs. apply H, Hs. Qed.
Lemma hoare_raise A P (Q : A -> pst -> Prop) e : hoare P Q (raise e).
Proof. intros s Hs. exact I. Qed.

(** adding zero times a direction *)
Lemma axpy_zero : forall p u, length u = length p -> vaxpy o (fq o 0 1) p u = p.
Proof. unfold vaxpy. induction p as [|a p IH]; intros [|b u] H; cbn in *; try lia; auto. rewrite Z0. f_equal. apply IH. lia. Qed.
Lemma add_zero d : forall ps off y, add_grad_from o off (fq o 0 1) d ps = Ok y -> y = ps.
Proof.
  induction ps as [|p ps IH]; intros off y; cbn [add_grad_from]; [congruence|].
  destruct (Nat.eqb_spec (length (firstn (length p) (skipn off d))) (length p)) as [E|]; [|discriminate].
  destruct (add_grad_from o (off + length p) (fq o 0 1) d ps) as [r|] eqn:Er; [|discriminate]. cbn.
  intros H. apply IH in Er. rewrite axpy_zero in H by exact E. congruence.
Qed.

Section At.
Variable x : params.
Variable d : list F.
Definition at_x (s : pst) : Prop := p_x s = x.
Definition value_at (t l : F) (v : list F) : Prop := forall y, add_grad o t d x = Ok y -> l = f y /\ v = df y.
Lemma hoare_dir_g t : hoare at_x (fun lg s => at_x s /\ value_at t (fst lg) (snd lg)) (dir_eval_g o clo_g x d t).
Proof.
  intros s Hs. unfold dir_eval_g, mbind, add_grad_m, mbind, get_x, lift, call. rewrite Hs.
  destruct (add_grad o t d x) as [y|e] eqn:E; cbn; [|exact I].
  pose proof (T2 y (p_w s)) as T. destruct (clo_g y (p_w s)) as [w [e|a]]; [exact I|]. cbn.
  split; [apply set_param_same; eapply add_grad_length; exact E|]. intros y' H. rewrite E in H. injection H as <-.
  specialize (T a eq_refl). subst a. auto.
Qed.
Definition seen_ok (seen : list (F * F * list F)) : Prop := Forall (fun p => value_at (fst (fst p)) (snd (fst p)) (snd p)) seen.
Variables (loss : F) (fg : list F).
Hypothesis HS : strict wolfe \/ (loss = f x /\ fg = df x).
Lemma hoare_wolfe gtd t0 n : forall seen, seen_ok seen ->
  hoare at_x (fun r s => let '(l, v, t, ev) := r in at_x s /\ value_at t l v) (wolfe_loop o clo_g wolfe n x d t0 loss fg gtd seen).
Proof.
  induction n; intros seen Hs; cbn [wolfe_loop]; [apply hoare_raise|].
  destruct (wolfe t0 d loss fg gtd seen) as [a|[[[l v] t'] ev]] eqn:Ew.
  - eapply hoare_bind; [apply hoare_dir_g|]. intros lg s [H1 H2]. apply IHn; [|exact H1].
    apply Forall_app. split; [exact Hs|]. constructor; [exact H2|constructor].
  - apply hoare_ret. intros s H1. split; [exact H1|]. unfold seen_ok in Hs. rewrite Forall_forall in Hs. destruct HS as [St|[-> ->]]; [apply St in Ew; exact (Hs _ Ew)|].
    apply HW in Ew. destruct Ew as [E|Hin]; [|exact (Hs _ Hin)].
    injection E as <- <- <-. intros y Hy. apply add_zero in Hy. subst y. auto.
Qed.
Definition good (nl : option F) (ng : option (list F)) (y : params) : Prop :=
  match nl, ng with Some l, Some v => l = f y /\ v = df y | _, _ => True end.
Lemma good_none nl y : good nl None y.
Proof. destruct nl; exact I. Qed.
Lemma hoare_ls g last t gtd : hoare at_x (fun r s => good (lo_loss r) (lo_grad r) (p_x s))
  (line_search o maxabs clo clo_g clo_ls wolfe yastn fuel g last d t loss fg gtd).
Proof.
  unfold line_search. destruct (g_ls g).
  1,2: eapply hoare_bind with (Q := fun _ _ => True); [intros s _; destruct (add_grad_m o t d s) as [? [?|?]]; exact I|]; intros []; destruct last; [apply hoare_ret; intros; apply good_none|];
    intros s _; unfold mbind, call; pose proof (T1 (p_x s) (p_w s)) as T; destruct (clo (p_x s) (p_w s)) as [w [e|a]]; [exact I|]; cbn; rewrite (T a eq_refl); cbn; auto.
  - intros s _. match goal with |- match ?m s with _ => _ end => assert (Hm : hoare (fun _ => True) (fun r s => good (lo_loss r) (lo_grad r) (p_x s)) m) end;
      [|exact (Hm s I)]. repeat (eapply hoare_bind with (Q := fun _ _ => True); [intros u _; match goal with |- match ?t with _ => _ end => destruct t as [? [?|?]]; exact I end|]; intros ?).
    apply hoare_ret. intros; apply good_none.
  - eapply hoare_bind with (Q := fun x' s => x' = x /\ at_x s); [intros s Hs; cbn; split; exact Hs|].
    intros x' s [-> Hs]. revert s Hs.
    eapply hoare_bind with (Q := fun r s => (lo_grad r = None \/ exists l v, lo_loss r = Some l /\ lo_grad r = Some v /\ at_x s /\ value_at (lo_t r) l v)).
    + intros s Hs. pose proof (hoare_wolfe gtd t fuel [] ltac:(constructor) s Hs) as H.
      destruct (wolfe_loop o clo_g wolfe fuel x d t loss fg gtd [] s) as [s' [e|[[[l v] t'] ev]]].
      * destruct yastn; [|exact I]. destruct e; try exact I.
        match goal with |- match ?m s' with _ => _ end => assert (Hm : hoare (fun _ => True) (fun r _ => lo_grad r = None) m) end.
        { repeat (eapply hoare_bind with (Q := fun _ _ => True); [intros u _; match goal with |- match ?t with _ => _ end => destruct t as [? [?|?]]; exact I end|]; intros ?).
          apply hoare_ret. reflexivity. }
        specialize (Hm s' I). match goal with |- match ?t with _ => _ end => destruct t as [s2 [e|r]] end; [exact I|]. left. exact Hm.
      * right. exists l, v. destruct H as [H1 H2]. cbn. auto.
    + intros r s [H|(l & v & E1 & E2 & Hs & H)]; unfold mbind, add_grad_m, mbind, get_x, lift.
      * destruct (add_grad o (lo_t r) d (p_x s)) as [y|e]; cbn; [|exact I]. rewrite H. apply good_none.
      * rewrite Hs. destruct (add_grad o (lo_t r) d x) as [y|e] eqn:E; cbn; [|exact I]. rewrite E1, E2. exact (H y E).
  - apply hoare_raise.
Qed.
End At.

(** parameters are not touched while the direction is computed *)
Definition kx {A} (m : M pst A) : Prop := forall s, p_x (fst (m s)) = p_x s.
Lemma kx_ret A (a : A) : kx (ret a). Proof. intros s. reflexivity. Qed.
Lemma kx_raise A e : kx (raise (A := A) e). Proof. intros s. reflexivity. Qed.
Lemma kx_bind A B (m : M pst A) (k : A -> M pst B) : kx m -> (forall a, kx (k a)) -> kx (mbind m k).
Proof. intros Hm Hk s. unfold mbind. specialize (Hm s). destruct (m s) as [s' [e|a]]; cbn in *; [exact Hm|]. rewrite Hk. exact Hm. Qed.
Lemma kx_get_opt : kx get_opt. Proof. intros s. reflexivity. Qed.
Lemma kx_put_opt a : kx (put_opt a). Proof. intros s. reflexivity. Qed.
Lemma kx_lift A (r : res A) : kx (lift r). Proof. destruct r; intros s; reflexivity. Qed.
Hint Resolve kx_ret kx_raise kx_bind kx_get_opt kx_put_opt kx_lift : kx.
Lemma kx_put_niter n : kx (put_niter n). Proof. unfold put_niter. auto with kx. Qed.
Lemma kx_put_mem n : kx (put_mem n). Proof. unfold put_mem. auto with kx. Qed.
Lemma kx_put_al n : kx (put_al n). Proof. unfold put_al. auto with kx. Qed.
Hint Resolve kx_put_niter kx_put_mem kx_put_al : kx.
Lemma kx_direction shared l fg : kx (direction o shared l fg).
Proof.
  unfold direction. apply kx_bind; [auto with kx|]. intros a. destruct (o_niter a =? 1)%Z; [auto with kx|].
  destruct (m_pg l), (m_d l), (m_t l), (m_dirs l), (m_stps l), (m_ro l), (m_H l); auto with kx.
  apply kx_bind; [auto with kx|]. intros [[[? ?] ?] ?]. apply kx_bind; [destruct shared; auto with kx|]. intros _.
  apply kx_bind; [auto with kx|]. intros _. apply kx_bind; [auto with kx|]. intros [? ?]. auto 10 with kx.
Qed.
Lemma kx_hoare A x (m : M pst A) : kx m -> hoare (at_x x) (fun _ => at_x x) m.
Proof. intros H s Hs. specialize (H s). destruct (m s) as [s' [e|a]]; [exact I|]. cbn in H. unfold at_x in *. congruence. Qed.
(** the parameter group is not touched either *)
Definition kg {A} (m : M pst A) : Prop := forall s, o_grp (p_opt (fst (m s))) = o_grp (p_opt s).
Lemma kg_of A (m : M pst A) : (forall g0, pinv (fun _ => True) g0 m) -> kg m.
Proof. intros H s. exact (proj2 (H (o_grp (p_opt s)) s (conj I eq_refl))). Qed.

Variable g : grp F.
Hypothesis M1 : g_max_iter g = 1%Z \/ strict wolfe.
Definition at_g (x : params) (s : pst) : Prop := p_x s = x /\ o_grp (p_opt s) = g.
Lemma at_hoare A x (m : M pst A) : kx m -> kg m -> hoare (at_g x) (fun _ => at_g x) m.
Proof. intros H H' s [H1 H2]. specialize (H s). specialize (H' s). destruct (m s) as [s' [e|a]]; [exact I|]. cbn in H, H'. split; congruence. Qed.
Lemma kg_bind A B (m : M pst A) (k : A -> M pst B) : kg m -> (forall a, kg (k a)) -> kg (mbind m k).
Proof. intros Hm Hk s. unfold mbind. specialize (Hm s). destruct (m s) as [s' [e|a]]; cbn in *; [exact Hm|]. rewrite Hk. exact Hm. Qed.

Lemma hoare_iteration x n loss fg shared pgs l ev nl ng : strict wolfe \/ (loss = f x /\ fg = df x) -> good nl ng x ->
  hoare (at_g x) (fun i s => o_grp (p_opt s) = g /\ good (i_loss i) (i_grad i) (p_x s) /\ m_pg (i_mem i) = Some fg /\ m_pl (i_mem i) = Some loss)
    (iteration o maxabs sumabs clo clo_g clo_ls wolfe yastn fuel n shared pgs l ev loss fg nl ng).
Proof.
  intros HS G. unfold iteration.
  eapply hoare_bind with (Q := fun _ => at_g x); [apply at_hoare; [apply kx_get_opt|apply kg_of; intros; apply pinv_get_opt]|]. intros a.
  eapply hoare_bind with (Q := fun _ => at_g x); [apply at_hoare; [apply kx_put_niter|apply kg_of; intros; apply pinv_put_niter]|]. intros _.
  eapply hoare_bind with (Q := fun _ => at_g x); [apply at_hoare; [apply kx_direction|apply kg_of; intros; apply pinv_direction]|]. intros [l1 sh1].
  eapply hoare_bind with (Q := fun a s => at_g x s /\ o_grp a = g).
  { intros s [H1 H2]. cbn. split; [split; assumption|exact H2]. }
  intros a1. eapply hoare_bind with (Q := fun _ s => at_g x s /\ o_grp a1 = g).
  { intros s [H1 H2]. match goal with |- match ?m s with _ => _ end => assert (Hm : hoare (at_g x) (fun _ => at_g x) m) end.
    { apply at_hoare; [match goal with |- kx (if ?b then _ else _) => destruct b; auto with kx end|].
      match goal with |- kg (if ?b then _ else _) => destruct b end; apply kg_of; intros; [apply pinv_put_mem|apply pinv_ret]. }
    specialize (Hm s H1). match goal with |- match ?t with _ => _ end => destruct t as [s2 [e|r]] end; [exact I|]. split; assumption. }
  intros _. cbv zeta. intros s [[H1 H2] H3]. rewrite H3.
  match goal with |- match (if ?b then _ else _) s with _ => _ end => destruct b end.
  { cbn. repeat split; auto. rewrite H1. exact G. }
  unfold mbind.
  match goal with |- context [line_search _ _ _ _ _ _ _ _ g ?last ?d ?t _ _ ?gtd s] =>
    pose proof (hoare_ls x d loss fg HS g last t gtd s H1) as L;
    assert (K : P (fun _ => True) g (fst (line_search o maxabs clo clo_g clo_ls wolfe yastn fuel g last d t loss fg gtd s)))
      by (apply pinv_ls; try (intros; exact I); try (intros _ ? ? ?; exact I); split; [exact I|exact H2]) end.
  destruct K as [_ K].
  destruct (line_search o maxabs clo clo_g clo_ls wolfe yastn fuel g _ _ _ _ _ _ s) as [s2 [e|r]]; [exact I|]. cbn. auto.
Qed.

Lemma hoare_iterations loss fg : forall k x n shared pgs l ev nl ng,
  strict wolfe \/ ((k <= 1)%nat /\ loss = f x /\ fg = df x) -> good nl ng x ->
  hoare (at_g x) (fun r s => let '(l', nl', ng') := r in o_grp (p_opt s) = g /\ good nl' ng' (p_x s) /\
      (k = O /\ p_x s = x /\ l' = l \/ m_pg l' = Some fg /\ m_pl l' = Some loss))
    (iterations o maxabs sumabs clo clo_g clo_ls wolfe yastn fuel k n shared pgs l ev loss fg nl ng).
Proof.
  induction k; intros x n shared pgs l ev nl ng HS G; cbn [iterations].
  - apply hoare_ret. intros s [H1 H2]. rewrite H1. split; [exact H2|]. split; [exact G|]. left. auto.
  - eapply hoare_bind; [apply hoare_iteration; [tauto|exact G]|]. intros i s (I1 & I2 & I3 & I4).
    destruct (i_break i); [cbn; auto|].
    assert (HS' : strict wolfe \/ ((k <= 1)%nat /\ loss = f (p_x s) /\ fg = df (p_x s)) \/ k = O).
    { destruct HS as [St|(K & _)]; [auto|]. right. right. lia. }
    assert (R : strict wolfe \/ (k <= 1)%nat /\ loss = f (p_x s) /\ fg = df (p_x s) -> match iterations o maxabs sumabs clo clo_g clo_ls wolfe yastn fuel k (n + 1) (i_shared i) (i_pgshared i) (i_mem i) (i_evals i) loss fg (i_loss i) (i_grad i) s with
      | (s', inr (l', nl', ng')) => o_grp (p_opt s') = g /\ good nl' ng' (p_x s') /\ (k = O /\ p_x s' = p_x s /\ l' = i_mem i \/ m_pg l' = Some fg /\ m_pl l' = Some loss) | _ => True end).
    { intros H. pose proof (IHk (p_x s) (n + 1)%Z (i_shared i) (i_pgshared i) (i_mem i) (i_evals i) (i_loss i) (i_grad i) H I2 s (conj eq_refl I1)) as Q.
      destruct (iterations _ _ _ _ _ _ _ _ _ k _ _ _ _ _ _ _ _ _ s) as [s' [e|[[l' n'] g']]]; exact Q. }
    assert (R0 : k = O -> match iterations o maxabs sumabs clo clo_g clo_ls wolfe yastn fuel k (n + 1) (i_shared i) (i_pgshared i) (i_mem i) (i_evals i) loss fg (i_loss i) (i_grad i) s with
      | (s', inr (l', nl', ng')) => o_grp (p_opt s') = g /\ good nl' ng' (p_x s') /\ (k = O /\ p_x s' = p_x s /\ l' = i_mem i \/ m_pg l' = Some fg /\ m_pl l' = Some loss) | _ => True end).
    { intros ->. cbn. auto. }
    assert (R' : match iterations o maxabs sumabs clo clo_g clo_ls wolfe yastn fuel k (n + 1) (i_shared i) (i_pgshared i) (i_mem i) (i_evals i) loss fg (i_loss i) (i_grad i) s with
      | (s', inr (l', nl', ng')) => o_grp (p_opt s') = g /\ good nl' ng' (p_x s') /\ (k = O /\ p_x s' = p_x s /\ l' = i_mem i \/ m_pg l' = Some fg /\ m_pl l' = Some loss) | _ => True end) by tauto.
    destruct (iterations _ _ _ _ _ _ _ _ _ k _ _ _ _ _ _ _ _ _ s) as [s' [e|[[l' n'] g']]]; [exact I|].
    destruct R' as (Q1 & Q2 & Q3). split; [exact Q1|]. split; [exact Q2|]. right. destruct Q3 as [(_ & _ & ->)|Q3]; auto.
Qed.

(** the result of a step *)
Definition done (x : params) (a0 : opt F) (nl : option F) (ng : option (list F)) (s : pst) : Prop :=
  o_grp (p_opt s) = g /\ good nl ng (p_x s) /\
  (p_x s = x /\ p_opt s = a0 \/ m_pg (o_mem (p_opt s)) = Some (df x) /\ m_pl (o_mem (p_opt s)) = Some (f x)).
Lemma step_current nl ng s : good nl ng (p_x s) -> o_grp (p_opt s) = g ->
  match step_2c o maxabs sumabs clo clo_g clo_ls wolfe yastn fuel nl ng s with
  | (s', inr (l, nl', ng')) => l = f (p_x s) /\ done (p_x s) (p_opt s) nl' ng' s'
  | _ => True
  end.
Proof.
  intros G Hg. unfold step_2c. set (x := p_x s) in *. set (a0 := p_opt s) in *.
  match goal with |- match ?m s with _ => _ end =>
    assert (Hm : hoare (fun s => p_x s = x /\ p_opt s = a0) (fun r s' => let '(l, nl', ng') := r in l = f x /\ done x a0 nl' ng' s') m) end.
  2:{ specialize (Hm s (conj eq_refl eq_refl)). match goal with |- match ?t with _ => _ end => destruct t as [s2 [e|[[l n1] g1]]] end; exact Hm. }
  eapply hoare_bind with (Q := fun r s => let '(l, v, ev) := r in l = f x /\ v = df x /\ p_x s = x /\ p_opt s = a0).
  { assert (C : hoare (fun s => p_x s = x /\ p_opt s = a0) (fun r s => let '(l, v, ev) := r in l = f x /\ v = df x /\ p_x s = x /\ p_opt s = a0)
      (lg <-- call clo ;; ret (fst lg, snd lg, 1%Z))).
    { intros u [U1 U2]. unfold mbind, call. pose proof (T1 (p_x u) (p_w u)) as T. destruct (clo (p_x u) (p_w u)) as [w [e|a]]; [exact I|]. cbn.
      specialize (T a eq_refl). subst a. rewrite U1. auto. }
    unfold good in G. destruct nl as [l|], ng as [v|]; try exact C. apply hoare_ret. intros u U. destruct G. tauto. }
  intros [[l v] ev]. intros u (-> & -> & U1 & U2). revert u U1 U2.
  match goal with |- forall u, _ -> _ -> match ?m u with _ => _ end =>
    assert (Hm : hoare (fun s => p_x s = x /\ p_opt s = a0) (fun r s' => let '(l, nl', ng') := r in l = f x /\ done x a0 nl' ng' s') m);
    [|intros u U1 U2; exact (Hm u (conj U1 U2))] end.
  intros u [U1 U2]. unfold mbind at 1. cbn [get_opt]. rewrite U2. fold a0 in Hg. rewrite Hg.
  destruct (fle o (maxabs (df x)) (g_tol_grad g)).
  { cbn. split; [reflexivity|]. split; [congruence|]. split; [exact I|]. left. auto. }
  unfold mbind at 1.
  match goal with |- context [iterations _ _ _ _ _ _ _ _ _ ?k ?n ?sh ?pg ?l ?ev _ _ nl ng u] =>
    pose proof (hoare_iterations (f x) (df x) k x n sh pg l ev nl ng ltac:(destruct M1 as [->|St]; [right; auto|left; exact St]) G u (conj U1 (eq_trans (f_equal (@o_grp F) U2) Hg))) as HI end.
  destruct (iterations o maxabs sumabs clo clo_g clo_ls wolfe yastn fuel _ _ _ _ _ _ _ _ nl ng u) as [u2 [e|[[l' nl'] ng']]] eqn:Ei; [exact I|].
  destruct HI as (I1 & I2 & I3). cbn. split; [reflexivity|]. split; [exact I1|]. split; [exact I2|].
  destruct I3 as [(K0 & X & ->)|[J1 J2]]; [left|right; auto].
  split; [exact X|]. rewrite K0 in Ei. cbn in Ei. injection Ei as <- _ _. rewrite U2. destruct a0; reflexivity.
Qed.
End Step.

(** ** no EnvError *)
Section NoEnv.
Context {F : Type} (o : fops F) {W : Type}.
Variables maxabs sumabs : list F -> F.
Variable clo clo_g : list (list F) -> W -> W * (exn + F * list F).
Variable clo_ls : list (list F) -> W -> W * (exn + F).
Variable wolfe : F -> list F -> F -> list F -> F -> list (F * F * list F) -> F + (F * list F * F * Z).
Variable yastn : bool.
Variable fuel : nat.
Notation pst := (@pst F W).
Definition quiet {A} (c : list (list F) -> W -> W * (exn + A)) : Prop := forall x w, snd (c x w) <> inl EnvErr.
Hypothesis T1 : quiet clo. Hypothesis T2 : quiet clo_g. Hypothesis T3 : quiet clo_ls.
Definition nev {A} (m : M pst A) : Prop := forall s, snd (m s) <> inl EnvErr.
Lemma nev_ret A (a : A) : nev (ret a). Proof. intros s; discriminate. Qed.
Lemma nev_raise A e : nev (raise (A:=A) (Py e)). Proof. intros s; discriminate. Qed.
Lemma nev_bind A B (m : M pst A) (k : A -> M pst B) : nev m -> (forall a, nev (k a)) -> nev (mbind m k).
Proof. intros Hm Hk s. unfold mbind. specialize (Hm s). destruct (m s) as [s' [e|a]]; cbn in *; [congruence|]. apply Hk. Qed.
Lemma nev_call A (c : list (list F) -> W -> W * (exn + A)) : quiet c -> nev (call c).
Proof. intros Hc s. unfold call. specialize (Hc (p_x s) (p_w s)). destruct (c (p_x s) (p_w s)). exact Hc. Qed.
Lemma nev_get_x : nev get_x. Proof. intros s; discriminate. Qed.
Lemma nev_get_opt : nev get_opt. Proof. intros s; discriminate. Qed.
Lemma nev_put_x x : nev (put_x x). Proof. intros s; discriminate. Qed.
Lemma nev_put_niter n : nev (put_niter n). Proof. intros s; discriminate. Qed.
Lemma nev_put_mem n : nev (put_mem n). Proof. intros s; discriminate. Qed.
Lemma nev_put_al n : nev (put_al n). Proof. intros s; discriminate. Qed.
Lemma nev_lift A (r : res A) : nev (lift r). Proof. destruct r; intros s; discriminate. Qed.
Hint Resolve nev_ret nev_raise nev_bind nev_call nev_get_x nev_get_opt nev_put_x nev_put_niter nev_put_mem nev_put_al nev_lift : nev.
Lemma nev_add t d : nev (add_grad_m o t d). Proof. unfold add_grad_m. auto 10 with nev. Qed.
Lemma nev_set x : nev (set_param_m x). Proof. unfold set_param_m. auto 10 with nev. Qed.
Hint Resolve nev_add nev_set : nev.
Lemma nev_dir x d t : nev (dir_eval o clo_ls x d t). Proof. unfold dir_eval. auto 10 with nev. Qed.
Lemma nev_dir_g x d t : nev (dir_eval_g o clo_g x d t). Proof. unfold dir_eval_g. auto 10 with nev. Qed.
Hint Resolve nev_dir nev_dir_g : nev.
Lemma nev_eval A (phi : F -> M pst F) y alpha (h : M pst A) k : (forall a, nev (phi a)) -> nev h -> (forall v, nev (k v)) -> nev (eval_phi phi y alpha h k).
Proof.
  intros Hp Hh Hk s. unfold eval_phi. specialize (Hp alpha s). destruct (phi alpha s) as [t [e|a]]; cbn in *; [|apply Hk].
  destruct y; [destruct e|]; cbn in *; auto; congruence.
Qed.
Lemma nev_armijo (phi : F -> M pst F) y p0 der am : (forall a, nev (phi a)) -> forall n a, nev (armijo o phi y p0 der am n a).
Proof.
  intros Hp.
  assert (L : forall n a0 q0 a1 q1, nev (armijo_loop o phi y p0 der am n a0 q0 a1 q1)).
  { induction n; intros; cbn [armijo_loop]; [auto with nev|]. destruct (flt o am a1); [|auto with nev].
    cbv zeta. apply nev_eval; [exact Hp|unfold handler; auto with nev|]. intros v. destruct (sufficient _ _ _ _ _); auto with nev. }
  intros. unfold armijo. apply nev_eval; [exact Hp|unfold handler; auto with nev|]. intros v. destruct (sufficient _ _ _ _ _); [auto with nev|].
  cbv zeta. apply nev_eval; [exact Hp|unfold handler; auto with nev|]. intros v2. destruct (sufficient _ _ _ _ _); [auto with nev|]. apply L.
Qed.
Lemma nev_bt y hv n x d eps loss gtd : forall t nl, nev (bt_loop o clo_ls y fuel hv n x d eps loss gtd t nl).
Proof.
  induction n; intros; cbn [bt_loop]; auto with nev. destruct (flt o eps t); auto with nev.
  apply nev_bind; [apply nev_armijo; auto with nev|]. intros r. destruct (ls_stat r); auto with nev. destruct (ls_alpha r); auto with nev.
Qed.
Lemma nev_wolfe n x d t loss g gtd : forall seen, nev (wolfe_loop o clo_g wolfe n x d t loss g gtd seen).
Proof. induction n; intros; cbn [wolfe_loop]; auto with nev. destruct (wolfe _ _ _ _ _ _); auto with nev. Qed.
Lemma nev_need p : nev (need_t p). Proof. unfold need_t. destruct (fst p); auto with nev. Qed.
Hint Resolve nev_bt nev_wolfe nev_need : nev.
Lemma nev_ls g last d t loss fg gtd : nev (line_search o maxabs clo clo_g clo_ls wolfe yastn fuel g last d t loss fg gtd).
Proof.
  unfold line_search. destruct (g_ls g).
  1,2: apply nev_bind; [auto with nev|]; intros _; destruct last; auto with nev.
  - auto 20 with nev.
  - apply nev_bind; [auto with nev|]. intros x. apply nev_bind; [|auto with nev].
    intros s. pose proof (nev_wolfe fuel x d t loss fg gtd [] s) as Hw.
    destruct (wolfe_loop o clo_g wolfe fuel x d t loss fg gtd [] s) as [s1 [e|[[[nl ng] t'] ev]]]; cbn [snd] in Hw |- *; [|discriminate].
    destruct yastn; [|discriminate]. destruct e; try (cbn; congruence).
    match goal with |- snd (?m s1) <> _ => assert (Hm : nev m) by auto 20 with nev; exact (Hm s1) end.
  - auto with nev.
Qed.
Lemma nev_direction shared l fg : nev (direction (W := W) o shared l fg).
Proof.
  unfold direction. apply nev_bind; [auto with nev|]. intros a. destruct (o_niter a =? 1)%Z; [auto with nev|].
  destruct (m_pg l), (m_d l), (m_t l), (m_dirs l), (m_stps l), (m_ro l), (m_H l); auto with nev.
  apply nev_bind; [auto with nev|]. intros [[[? ?] ?] ?]. apply nev_bind; [destruct shared; auto with nev|]. intros _.
  apply nev_bind; [auto with nev|]. intros _. apply nev_bind; [auto with nev|]. intros [? ?]. auto 10 with nev.
Qed.
Lemma nev_iteration n shared pgs l ev loss fg nl ng :
  nev (iteration o maxabs sumabs clo clo_g clo_ls wolfe yastn fuel n shared pgs l ev loss fg nl ng).
Proof.
  unfold iteration. apply nev_bind; [auto with nev|]. intros a. apply nev_bind; [auto with nev|]. intros _.
  apply nev_bind; [apply nev_direction|]. intros [l' sh']. apply nev_bind; [auto with nev|]. intros a1.
  apply nev_bind; [match goal with |- nev (if ?b then _ else _) => destruct b; auto with nev end|]. intros _. cbv zeta.
  match goal with |- nev (if ?b then _ else _) => destruct b; [auto with nev|] end.
  apply nev_bind; [|auto with nev]. apply nev_ls.
Qed.
Lemma nev_iterations : forall k n shared pgs l ev loss fg nl ng,
  nev (iterations o maxabs sumabs clo clo_g clo_ls wolfe yastn fuel k n shared pgs l ev loss fg nl ng).
Proof.
  induction k; intros; cbn [iterations]; [auto with nev|]. apply nev_bind; [apply nev_iteration|]. intros i. destruct (i_break i); auto with nev.
Qed.
Lemma nev_step nl ng : nev (step_2c o maxabs sumabs clo clo_g clo_ls wolfe yastn fuel nl ng).
Proof.
  unfold step_2c. apply nev_bind; [destruct nl, ng; auto with nev|]. intros [[loss fg] ev]. apply nev_bind; [auto with nev|].
  intros a. destruct (fle o _ _); [auto with nev|]. apply nev_bind; [|intros [[l' nl'] ng']; auto with nev].
  apply nev_iterations.
Qed.
End NoEnv.

(** ** a run *)
Section Run.
Context {F E : Type} (o : fops F).
Notation params := (list (list F)).
Notation world := (@world F E).
Notation pst := (@pst F world).
Variable loss_fn : bool -> params -> @tdata F -> E -> E * (exn + F).
Variable gradient : params -> F -> E -> E * (exn + list F).
Variable post_proc : option (params -> E -> E * (exn + params)).
Variable noise : params -> E -> E * params.
Variable gauge : params -> E -> E * (exn + params).
Variable g : grp F.
Variables (regauge yastn : bool) (status_antivar : E -> bool).
Variables maxabs sumabs : list F -> F.
Variable wolfe : F -> list F -> F -> list F -> F -> list (F * F * list F) -> F + (F * list F * F * Z).
Variable fuel : nat.
Variables (f : params -> F) (df : params -> list F).
Hypothesis PL : answers_loss loss_fn f. Hypothesis PG : answers_grad gradient df. Hypothesis PP : keeps_params post_proc.
Hypothesis HW : honest (fq o 0 1) wolfe.
Hypothesis Z0 : forall a b, fadd o a (fmul o (fq o 0 1) b) = a.

Lemma mod_answer wr ls x w : snd (closure_mod o loss_fn gradient wr ls x w) = inr (f x, df x) \/
  exists ex, snd (closure_mod o loss_fn gradient wr ls x w) = inl ex /\ ex <> EnvErr.
Proof.
  unfold closure_mod, eval_loss. pose proof (PL ls x (w_t w) (w_env w)) as H. destruct (loss_fn ls x (w_t w) (w_env w)) as [e r]. cbn in H.
  destruct H as [->|(ex & -> & N)]; [|right; exists ex; auto].
  unfold eval_grad. match goal with |- context [gradient ?a ?b ?c] => pose proof (PG a b c) as H; destruct (gradient a b c) as [e' r'] end. cbn in H.
  destruct H as [->|(ex & -> & N)]; [left; reflexivity|right; exists ex; auto].
Qed.
Lemma mod_tells wr ls : tells f df (closure_mod o loss_fn gradient wr ls).
Proof. intros x w a H. destruct (mod_answer wr ls x w) as [K|(ex & K & _)]; congruence. Qed.
Lemma mod_quiet wr ls : quiet (closure_mod o loss_fn gradient wr ls).
Proof. intros x w H. destruct (mod_answer wr ls x w) as [K|(ex & K & N)]; congruence. Qed.
Lemma ls_quiet wr : quiet (closure_linesearch o loss_fn wr).
Proof.
  intros x w. unfold closure_linesearch, eval_loss. pose proof (PL true x (w_t w) (w_env w)) as H. destruct (loss_fn true x (w_t w) (w_env w)) as [e r]. cbn in H.
  destruct H as [->|(ex & -> & N)]; cbn; congruence.
Qed.
(** the list of losses only grows *)
Definition ne (w : world) : Prop := t_loss (w_t w) <> [].
Lemma ne_loss x l w : ne w -> ne (record_loss o x l w).
Proof. unfold ne. cbn. intros _ H. apply app_eq_nil in H. destruct H; discriminate. Qed.
Lemma ne_mod wr ls x w : ne w -> ne (fst (closure_mod o loss_fn gradient wr ls x w)).
Proof.
  intros N. unfold closure_mod, eval_loss. destruct (loss_fn ls x (w_t w) (w_env w)) as [e [ex|r]]; [exact N|].
  unfold eval_grad. match goal with |- context [gradient ?a ?b ?c] => destruct (gradient a b c) as [e' [ex|v]] end; [exact N|].
  destruct ls; [exact N|]. apply (ne_loss x r (set_env (set_env w e) e')). exact N.
Qed.
Lemma ne_ls wr x w : ne w -> ne (fst (closure_linesearch o loss_fn wr x w)).
Proof. intros N. unfold closure_linesearch, eval_loss. destruct (loss_fn true x (w_t w) (w_env w)) as [e [ex|r]]; exact N. Qed.

Notation stepm := (step_mod o loss_fn gradient yastn maxabs sumabs wolfe fuel).
Notation epochm := (epoch_mod o loss_fn gradient post_proc noise gauge g regauge yastn status_antivar maxabs sumabs wolfe fuel).
Notation mst := (option F * option (list F) * pst)%type.
Notation ef := (ef_mod o loss_fn gradient post_proc noise gauge g regauge yastn status_antivar maxabs sumabs wolfe fuel).
Hypothesis M1 : g_max_iter g = 1%Z \/ strict wolfe.
Lemma ne_step nl ng s : ne (p_w s) -> ne (p_w (fst (stepm nl ng s))).
Proof.
  intros N. refine (proj1 (pinv_step o maxabs sumabs _ _ _ wolfe yastn fuel ne (o_grp (p_opt s)) _ _ nl ng _ s (conj N eq_refl))).
  - intros _ x w. apply ne_mod.
  - intros _ x w. apply ne_ls.
  - intros x w. apply ne_mod.
Qed.
Lemma post_keeps s s' r : post post_proc s = (s', r) -> p_x s' = p_x s /\ p_opt s' = p_opt s /\ w_t (p_w s') = w_t (p_w s).
Proof.
  unfold post. destruct post_proc as [p|] eqn:Ep; [|intros H; injection H as <- <-; auto].
  pose proof (PP p eq_refl (p_x s) (w_env (p_w s))) as K. destruct (p (p_x s) (w_env (p_w s))) as [e [ex|y]]; intros H; injection H as <- <-; cbn; auto.
Qed.
Definition okm (s : mst) : Prop := good f df (fst (fst s)) (snd (fst s)) (p_x (snd s)) /\ (g_max_iter (o_grp (p_opt (snd s))) = 1%Z \/ strict wolfe).
Lemma epoch_current s s' b : okm s -> ef s = (s', b) -> (exists e, b = Fail e) \/
  okm s' /\ current g f df (pr_mod s) (pr_mod s') /\ (ne (p_w (snd s)) -> ne (p_w (snd s'))).
Proof.
  destruct s as [[nl ng] s]. unfold okm, ef_mod. cbn [fst snd]. intros [G M]. unfold epoch_mod.
  pose proof (step_current o maxabs sumabs _ _ (closure_linesearch o loss_fn true) wolfe yastn fuel f df (mod_tells true false) (mod_tells true true) HW Z0 _ M nl ng s G eq_refl) as C.
  pose proof (nev_step o maxabs sumabs _ _ _ wolfe yastn fuel (mod_quiet true false) (mod_quiet true true) (ls_quiet true) nl ng s) as Q.
  pose proof (ne_step nl ng s) as N. fold (stepm nl ng) in C, Q.
  destruct (stepm nl ng s) as [s1 [e|[[l n1] g1]]]; cbn [fst snd] in *.
  - destruct yastn; cbn [negb]; [|intros H; injection H as _ <-; left; eauto].
    destruct e; [|congruence|intros H; injection H as _ <-; left; eauto].
    destruct (noise (p_x s1) (w_env (p_w s1))) as [e x]. intros H. injection H as <- <-. right. cbn [fst snd].
    split; [split; [exact I|exact M1]|]. split; [left; reflexivity|exact N].
  - destruct (after_step_facts o post_proc g status_antivar maxabs g1 s1) as (s2 & b2 & Ha & Es). rewrite Ha. intros H. injection H as <- <-. right. cbn [fst snd].
    destruct (post post_proc (reset_ls o s1)) as [s3 r3] eqn:Ep. cbn in Es. subst s2. apply post_keeps in Ep. destruct Ep as (P1 & P2 & P3).
    destruct C as (-> & D1 & D2 & D3). unfold pr_mod, current. cbn [fst snd]. rewrite P1, P2. cbn [reset_ls p_x p_opt].
    split; [split; [exact D2|rewrite D1; exact M]|]. split.
    + right. destruct D3 as [[-> ->]|[-> ->]]; [left|right]; auto.
    + unfold ne. rewrite P3. exact N.
Qed.

(** what follows in the list of checkpoints *)
Lemma current_tails mx : forall k ep s, okm s -> ne (p_w (snd s)) ->
  successive (current g f df) (pr_mod s :: map pp (tails ef pr_mod ls_mod mx k ep s)).
Proof.
  assert (St : forall n s, ne (p_w (snd s)) -> map pp (stored pr_mod ls_mod n s) = [pr_mod s]).
  { intros n s N. unfold ne in N. unfold stored, ls_mod, last_opt. destruct (t_loss (w_t (p_w (snd s)))) as [|a t] eqn:T; [congruence|].
    destruct (rev (a :: t)) as [|b t'] eqn:Er; [apply (f_equal (@length F)) in Er; rewrite rev_length in Er; discriminate|]. reflexivity. }
  assert (S1 : forall a b (R : params * opt F -> params * opt F -> Prop), R a b -> successive R [a; b]).
  { intros a b R H [|x l1] c d l2 Heq; cbn in Heq; [injection Heq as <- <- _; exact H|]. injection Heq as _ Heq. destruct l1 as [|y [|? ?]]; cbn in Heq; discriminate. }
  assert (S0 : forall a (R : params * opt F -> params * opt F -> Prop), successive R [a]).
  { intros a R [|x l1] c d l2 Heq; cbn in Heq; [discriminate|]. injection Heq as _ Heq. destruct l1; discriminate. }
  assert (SS : forall a b l (R : params * opt F -> params * opt F -> Prop), R a b -> successive R (b :: l) -> successive R (a :: b :: l)).
  { intros a b l R H HS [|x l1] c d l2 Heq; cbn in Heq; [injection Heq as <- <- _; exact H|]. injection Heq as _ Heq. exact (HS _ _ _ _ Heq). }
  induction k; intros ep s Hs N; cbn [tails]; destruct (ef s) as [s' b] eqn:Ee;
    (destruct (epoch_current s s' b Hs Ee) as [[e ->]|(O' & C & N')]; [apply S0|]); destruct b; try apply S0; rewrite ?map_app, ?St by auto; cbn [app]; try (apply S1; exact C).
  apply SS; [exact C|]. apply IHk; auto.
Qed.
Lemma current_tails' mx : forall k ep s, okm s -> successive (current g f df) (map pp (tails ef pr_mod ls_mod mx k ep s)).
Proof.
  assert (S0 : forall a (R : params * opt F -> params * opt F -> Prop), successive R [a]).
  { intros a R [|x l1] c d l2 Heq; cbn in Heq; [discriminate|]. injection Heq as _ Heq. destruct l1; discriminate. }
  assert (Sn : forall (R : params * opt F -> params * opt F -> Prop), successive R []).
  { intros R [|x l1] c d l2 Heq; discriminate. }
  assert (So : forall n (s : mst) (R : params * opt F -> params * opt F -> Prop), successive R (map pp (stored pr_mod ls_mod n s))).
  { intros n s R. unfold stored. destruct (last_opt _); [apply S0|apply Sn]. }
  induction k; intros ep s Hs; cbn [tails]; destruct (ef s) as [s' b] eqn:Ee;
    (destruct (epoch_current s s' b Hs Ee) as [[e ->]|(O' & C & N')]; [apply Sn|]); destruct b; auto.
  rewrite map_app. unfold stored at 1. destruct (last_opt (ls_mod s')) as [l|] eqn:L; [|apply IHk; exact O'].
  cbn [map app]. change (pp _) with (pr_mod s') at 1. apply current_tails; [exact O'|].
  unfold ne. intros K. unfold ls_mod in L. rewrite K in L. discriminate.
Qed.
Lemma run_current n x a e file : g_max_iter (o_grp a) = 1%Z \/ strict wolfe ->
  successive (current g f df) (map (fun c => (c_params c, c_opt c))
    (r_ck (fst (optimize_mod o loss_fn gradient post_proc noise gauge g regauge yastn status_antivar maxabs sumabs wolfe fuel n x a e file)))).
Proof.
  intros M. destruct n; [intros [|? ?] ? ? ? ?; discriminate|]. rewrite optimize_mod_ck. apply (current_tails' _ n 0%Z (None, None, _)). split; [exact I|exact M].
Qed.
End Run.

(** ** histories of losses *)
Section Appends.
Context {F E : Type} (o : fops F).
Notation params := (list (list F)).
Notation world := (@world F E).
Variable loss_fn : bool -> params -> @tdata F -> E -> E * (exn + F).
Variable gradient : params -> F -> E -> E * (exn + list F).
Variables maxabs sumabs : list F -> F.
Variable wolfe : F -> list F -> F -> list F -> F -> list (F * F * list F) -> F + (F * list F * F * Z).
Variables (yastn : bool) (fuel : nat).
Lemma appends_refl (w : world) : appends w w.
Proof. exists []. cbn. rewrite !app_nil_r. auto. Qed.
Lemma appends_env (w w' : world) e : appends w w' -> appends w (set_env w' e).
Proof. exact (fun H => H). Qed.
Lemma appends_loss (w w' : world) x l : appends w w' -> appends w (record_loss o x l w').
Proof.
  intros (new & H1 & H2 & H3). exists (new ++ [(false, x, l)]). unfold starts_of in *. rewrite !filter_app, !map_app, !app_assoc. cbn. rewrite H1, H2, H3, app_nil_r. auto.
Qed.
Lemma appends_ls (w w' : world) wr x l : appends w w' -> appends w (record_ls o wr x l w').
Proof.
  intros (new & H1 & H2 & H3). exists (new ++ [(true, x, l)]). unfold starts_of in *. rewrite !filter_app, !map_app, !app_assoc. cbn. rewrite H1, H2, H3, app_nil_r. auto.
Qed.
Lemma appends_mod w0 wr ls x w : appends w0 w -> appends w0 (fst (closure_mod o loss_fn gradient wr ls x w)).
Proof.
  intros N. unfold closure_mod, eval_loss. destruct (loss_fn ls x (w_t w) (w_env w)) as [e [ex|r]]; [exact N|].
  unfold eval_grad. match goal with |- context [gradient ?a ?b ?c] => destruct (gradient a b c) as [e' [ex|v]] end; [exact N|].
  destruct ls; [apply appends_ls|apply appends_loss]; exact N.
Qed.
Lemma appends_fd w0 ls x w : appends w0 w -> appends w0 (fst (closure_fd o loss_fn gradient ls x w)).
Proof.
  intros N. unfold closure_fd, eval_loss. destruct (loss_fn ls x (w_t w) (w_env w)) as [e [ex|r]]; [exact N|].
  assert (K : appends w0 (if ls then record_ls o false x r (set_env w e) else record_loss o x r (set_env w e))) by (destruct ls; [apply appends_ls|apply appends_loss]; exact N).
  unfold eval_grad. cbv zeta. match goal with |- context [gradient ?a ?b ?c] => destruct (gradient a b c) as [e' [ex|v]] end; exact K.
Qed.
Lemma appends_linesearch w0 wr x w : appends w0 w -> appends w0 (fst (closure_linesearch o loss_fn wr x w)).
Proof.
  intros N. unfold closure_linesearch, eval_loss. destruct (loss_fn true x (w_t w) (w_env w)) as [e [ex|r]]; [exact N|]. apply appends_ls. exact N.
Qed.
Lemma step_appends nl ng s :
  appends (p_w s) (p_w (fst (step_mod o loss_fn gradient yastn maxabs sumabs wolfe fuel nl ng s))) /\
  appends (p_w s) (p_w (fst (step_2c o maxabs sumabs (closure_fd o loss_fn gradient false) (closure_fd o loss_fn gradient true) (closure_linesearch o loss_fn false)
    wolfe yastn fuel nl ng s))).
Proof.
  split.
  - refine (proj1 (pinv_step o maxabs sumabs _ _ _ wolfe yastn fuel (appends (p_w s)) (o_grp (p_opt s)) _ _ nl ng _ s (conj (appends_refl _) eq_refl))).
    + intros _ x w. apply appends_mod.
    + intros _ x w. apply appends_linesearch.
    + intros x w. apply appends_mod.
  - refine (proj1 (pinv_step o maxabs sumabs _ _ _ wolfe yastn fuel (appends (p_w s)) (o_grp (p_opt s)) _ _ nl ng _ s (conj (appends_refl _) eq_refl))).
    + intros _ x w. apply appends_fd.
    + intros _ x w. apply appends_linesearch.
    + intros x w. apply appends_fd.
Qed.
End Appends.
