From Verif Require Import Base BaseLemmas Flt Armijo Lbfgs LbfgsSpec LbfgsProofs OptRun OptRunSpec.
Open Scope list_scope.

(** ** a property of the world that the closures preserve is preserved by a step *)
Section Inv.
Context {F : Type} (o : fops F) {W : Type}.
Variables maxabs sumabs : list F -> F.
Variable clo clo_g : list (list F) -> W -> W * (exn + F * list F).
Variable clo_ls : list (list F) -> W -> W * (exn + F).
Variable wolfe : F -> list F -> F -> list F -> F -> list (F * F * list F) -> F + (F * list F * F * Z).
Variable yastn : bool.
Variable fuel : nat.
Variable Inv : W -> Prop.
Variable g0 : grp F.
Definition searches : bool := match g_ls g0 with LSnone | LSdefault => false | _ => true end.
Definition Hclo : Prop := forall x w, Inv w -> Inv (fst (clo x w)).
Hypothesis Hclo_g : searches = true -> forall x w, Inv w -> Inv (fst (clo_g x w)).
Hypothesis Hclo_ls : searches = true -> forall x w, Inv w -> Inv (fst (clo_ls x w)).
Notation pst := (@pst F W).
Definition P (s : pst) : Prop := Inv (p_w s) /\ o_grp (p_opt s) = g0.
Definition pinv {A} (m : M pst A) : Prop := forall s, P s -> P (fst (m s)).

Lemma pinv_ret A (a : A) : pinv (ret a). Proof. intros s H; exact H. Qed.
Lemma pinv_raise A e : pinv (raise (A:=A) e). Proof. intros s H; exact H. Qed.
Lemma pinv_bind A B (m : M pst A) (k : A -> M pst B) : pinv m -> (forall a, pinv (k a)) -> pinv (mbind m k).
Proof. intros Hm Hk s H. unfold mbind. specialize (Hm s H). destruct (m s) as [s' [e|a]]; cbn in *; auto. apply Hk; auto. Qed.
Lemma pinv_call A (c : list (list F) -> W -> W * (exn + A)) : (forall x w, Inv w -> Inv (fst (c x w))) -> pinv (call c).
Proof. intros Hc s [H1 H2]. unfold call. specialize (Hc (p_x s) (p_w s) H1). destruct (c (p_x s) (p_w s)). split; assumption. Qed.
Lemma pinv_get_x : pinv get_x. Proof. intros s H; exact H. Qed.
Lemma pinv_get_opt : pinv get_opt. Proof. intros s H; exact H. Qed.
Lemma pinv_put_x x : pinv (put_x x). Proof. intros s H; exact H. Qed.
Lemma pinv_put_niter n : pinv (put_niter n). Proof. intros s H; exact H. Qed.
Lemma pinv_put_mem n : pinv (put_mem n). Proof. intros s H; exact H. Qed.
Lemma pinv_put_al n : pinv (put_al n). Proof. intros s H; exact H. Qed.
Lemma pinv_lift A (r : res A) : pinv (lift r). Proof. destruct r; intros s H; exact H. Qed.
Hint Resolve pinv_ret pinv_raise pinv_bind pinv_call pinv_get_x pinv_get_opt pinv_put_x pinv_put_niter pinv_put_mem pinv_put_al pinv_lift : pinv.
Lemma pinv_add t d : pinv (add_grad_m o t d).
Proof. unfold add_grad_m. auto 10 with pinv. Qed.
Lemma pinv_set x : pinv (set_param_m x).
Proof. unfold set_param_m. auto 10 with pinv. Qed.
Hint Resolve pinv_add pinv_set : pinv.
Section LS.
Hypothesis S : searches = true.
Lemma pinv_dir x d t : pinv (dir_eval o clo_ls x d t).
Proof. unfold dir_eval. pose proof (Hclo_ls S). auto 10 with pinv. Qed.
Lemma pinv_dir_g x d t : pinv (dir_eval_g o clo_g x d t).
Proof. unfold dir_eval_g. pose proof (Hclo_g S). auto 10 with pinv. Qed.
Hint Resolve pinv_dir pinv_dir_g : pinv.
Lemma pinv_armijo y x d loss gtd t : pinv (armijo o (dir_eval o clo_ls x d) y loss gtd (amin o) fuel t).
Proof.
  intros s. apply (armijo_pres o (fun s s' => P s -> P s')); auto. intros a s'. apply pinv_dir.
Qed.
Hint Resolve pinv_armijo : pinv.
Lemma pinv_bt y hv n x d eps loss gtd : forall t nl, pinv (bt_loop o clo_ls y fuel hv n x d eps loss gtd t nl).
Proof.
  induction n; intros; cbn [bt_loop]; auto with pinv. destruct (flt o eps t); auto with pinv.
  apply pinv_bind; auto with pinv. intros r. destruct (ls_stat r); auto with pinv. destruct (ls_alpha r); auto with pinv.
Qed.
Lemma pinv_wolfe n x d t loss g gtd : forall seen, pinv (wolfe_loop o clo_g wolfe n x d t loss g gtd seen).
Proof. induction n; intros; cbn [wolfe_loop]; auto with pinv. destruct (wolfe _ _ _ _ _ _); auto with pinv. Qed.
End LS.
Lemma pinv_need p : pinv (need_t p).
Proof. unfold need_t. destruct (fst p); auto with pinv. Qed.
Hint Resolve pinv_bt pinv_wolfe pinv_need : pinv.

Lemma pinv_ls last d t loss fg gtd : (last = false -> Hclo) ->
  pinv (line_search o maxabs clo clo_g clo_ls wolfe yastn fuel g0 last d t loss fg gtd).
Proof.
  intros HC. unfold line_search. destruct (g_ls g0) eqn:L.
  1,2: apply pinv_bind; [auto with pinv|]; intros _; destruct last; [auto with pinv|]; pose proof (HC eq_refl : forall x w, Inv w -> Inv (fst (clo x w))); apply pinv_bind; [auto with pinv|]; auto with pinv.
  - assert (S : searches = true) by (unfold searches; rewrite L; reflexivity). auto 20 with pinv.
  - assert (S : searches = true) by (unfold searches; rewrite L; reflexivity).
    apply pinv_bind; [auto with pinv|]. intros x. apply pinv_bind; [|auto with pinv].
    intros s H. pose proof (pinv_wolfe S fuel x d t loss fg gtd [] s H) as Hw.
    destruct (wolfe_loop o clo_g wolfe fuel x d t loss fg gtd [] s) as [s' [e|[[[nl ng] t'] ev]]]; cbn [fst] in Hw |- *; auto.
    destruct yastn; auto. destruct e; auto.
    match goal with |- P (fst (?m s')) => assert (Hm : pinv m) by auto 20 with pinv; exact (Hm s' Hw) end.
  - auto with pinv.
Qed.

Lemma pinv_direction shared l fg : pinv (direction o shared l fg).
Proof.
  unfold direction. apply pinv_bind; [auto with pinv|]. intros a. destruct (o_niter a =? 1)%Z; [auto with pinv|].
  destruct (m_pg l), (m_d l), (m_t l), (m_dirs l), (m_stps l), (m_ro l), (m_H l); auto with pinv.
  apply pinv_bind; [auto with pinv|]. intros [[[? ?] ?] ?]. apply pinv_bind; [destruct shared; auto with pinv|]. intros _.
  apply pinv_bind; [auto with pinv|]. intros _. apply pinv_bind; [auto with pinv|]. intros [? ?]. auto 10 with pinv.
Qed.

Lemma pinv_iteration n shared pgs l ev loss fg nl ng : ((n =? g_max_iter g0)%Z = false -> Hclo) ->
  pinv (iteration o maxabs sumabs clo clo_g clo_ls wolfe yastn fuel n shared pgs l ev loss fg nl ng).
Proof.
  intros HC. unfold iteration. apply pinv_bind; [auto with pinv|]. intros a. apply pinv_bind; [auto with pinv|]. intros _.
  apply pinv_bind; [apply pinv_direction|]. intros [l' sh'].
  intros s [H1 H2]. unfold mbind at 1. cbn [get_opt].
  match goal with |- P (fst (?m s)) => assert (Hm : pinv m) end; [|apply Hm; split; assumption].
  apply pinv_bind; [match goal with |- pinv (if ?b then _ else _) => destruct b; auto with pinv end|]. intros _. cbv zeta.
  match goal with |- pinv (if ?b then _ else _) => destruct b; [auto with pinv|] end.
  apply pinv_bind; [|auto with pinv]. rewrite H2. apply pinv_ls. exact HC.
Qed.
Lemma pinv_iterations : Hclo -> forall k n shared pgs l ev loss fg nl ng,
  pinv (iterations o maxabs sumabs clo clo_g clo_ls wolfe yastn fuel k n shared pgs l ev loss fg nl ng).
Proof.
  intros HC. induction k; intros; cbn [iterations]; [auto with pinv|]. apply pinv_bind; [apply pinv_iteration; auto|].
  intros i. destruct (i_break i); auto with pinv.
Qed.
Lemma pinv_iterations1 shared pgs l ev loss fg nl ng : g_max_iter g0 = 1%Z ->
  pinv (iterations o maxabs sumabs clo clo_g clo_ls wolfe yastn fuel 1 0 shared pgs l ev loss fg nl ng).
Proof.
  intros M1. cbn [iterations]. apply pinv_bind; [apply pinv_iteration; rewrite M1; discriminate|].
  intros i. destruct (i_break i); auto with pinv.
Qed.
Lemma pinv_step nl ng : Hclo -> pinv (step_2c o maxabs sumabs clo clo_g clo_ls wolfe yastn fuel nl ng).
Proof.
  intros HC. pose proof (HC : forall x w, Inv w -> Inv (fst (clo x w))). unfold step_2c. apply pinv_bind; [destruct nl, ng; auto with pinv|]. intros [[loss fg] ev]. apply pinv_bind; [auto with pinv|].
  intros a. destruct (fle o _ _); [auto with pinv|]. apply pinv_bind; [apply pinv_iterations; exact HC|]. intros [[l' nl'] ng']. auto with pinv.
Qed.
(** the same, from the world after the first evaluation *)
Lemma inv_after_start nl (s : pst) w lg : clo (p_x s) (p_w s) = (w, inr lg) -> Inv w -> o_grp (p_opt s) = g0 ->
  Hclo \/ g_max_iter g0 = 1%Z -> P (fst (step_2c o maxabs sumabs clo clo_g clo_ls wolfe yastn fuel nl None s)).
Proof.
  intros C Iw G HC. unfold step_2c.
  assert (K : forall m : M pst (F * list F * Z), m = mbind (call clo) (fun lg => ret (fst lg, snd lg, 1%Z)) ->
    m s = ({| p_x := p_x s; p_opt := p_opt s; p_w := w |}, inr (fst lg, snd lg, 1%Z))).
  { intros m ->. unfold mbind, call. rewrite C. reflexivity. }
  unfold mbind at 1. rewrite K by (destruct nl; reflexivity). cbv beta iota.
  unfold mbind at 1. cbn [get_opt p_opt].
  match goal with |- P (fst (?m ?s1)) => assert (Hm : pinv m); [|apply Hm; split; [exact Iw|exact G]] end.
  destruct (fle o _ _); [auto with pinv|]. apply pinv_bind; [|intros [[l' nl'] ng']; auto with pinv].
  destruct HC as [HC|HC]; [apply pinv_iterations; exact HC|]. rewrite G, HC. apply pinv_iterations1. exact HC.
Qed.
End Inv.

(** ** only Python errors *)
Section OnlyPy.
Context {F : Type} (o : fops F) {W : Type}.
Variables maxabs sumabs : list F -> F.
Variable clo clo_g : list (list F) -> W -> W * (exn + F * list F).
Variable clo_ls : list (list F) -> W -> W * (exn + F).
Variable wolfe : F -> list F -> F -> list F -> F -> list (F * F * list F) -> F + (F * list F * F * Z).
Variable yastn : bool.
Variable fuel : nat.
Notation pst := (@pst F W).
Definition is_py (e : exn) : Prop := match e with Py _ => True | _ => False end.
Definition total {A} (c : list (list F) -> W -> W * (exn + A)) : Prop := forall x w, exists a, snd (c x w) = inr a.
Hypothesis T1 : total clo. Hypothesis T2 : total clo_g. Hypothesis T3 : total clo_ls.
Definition opy {A} (m : M pst A) : Prop := forall s, match snd (m s) with inl e => is_py e | inr _ => True end.
Lemma opy_ret A (a : A) : opy (ret a). Proof. intros s; exact I. Qed.
Lemma opy_raise A e : opy (raise (A:=A) (Py e)). Proof. intros s; exact I. Qed.
Lemma opy_bind A B (m : M pst A) (k : A -> M pst B) : opy m -> (forall a, opy (k a)) -> opy (mbind m k).
Proof. intros Hm Hk s. unfold mbind. specialize (Hm s). destruct (m s) as [s' [e|a]]; cbn in *; auto. apply Hk. Qed.
Lemma opy_call A (c : list (list F) -> W -> W * (exn + A)) : total c -> opy (call c).
Proof. intros Hc s. unfold call. destruct (Hc (p_x s) (p_w s)) as [a Ha]. destruct (c (p_x s) (p_w s)). cbn in *. subst. exact I. Qed.
Lemma opy_get_x : opy get_x. Proof. intros s; exact I. Qed.
Lemma opy_get_opt : opy get_opt. Proof. intros s; exact I. Qed.
Lemma opy_put_x x : opy (put_x x). Proof. intros s; exact I. Qed.
Lemma opy_put_niter n : opy (put_niter n). Proof. intros s; exact I. Qed.
Lemma opy_put_mem n : opy (put_mem n). Proof. intros s; exact I. Qed.
Lemma opy_put_al n : opy (put_al n). Proof. intros s; exact I. Qed.
Lemma opy_lift A (r : res A) : opy (lift r). Proof. destruct r; intros s; exact I. Qed.
Hint Resolve opy_ret opy_raise opy_bind opy_call opy_get_x opy_get_opt opy_put_x opy_put_niter opy_put_mem opy_put_al opy_lift : opy.
Lemma opy_add t d : opy (add_grad_m o t d). Proof. unfold add_grad_m. auto 10 with opy. Qed.
Lemma opy_set x : opy (set_param_m x). Proof. unfold set_param_m. auto 10 with opy. Qed.
Hint Resolve opy_add opy_set : opy.
Lemma opy_dir x d t : opy (dir_eval o clo_ls x d t). Proof. unfold dir_eval. auto 10 with opy. Qed.
Lemma opy_dir_g x d t : opy (dir_eval_g o clo_g x d t). Proof. unfold dir_eval_g. auto 10 with opy. Qed.
Hint Resolve opy_dir opy_dir_g : opy.
Lemma opy_eval A (phi : F -> M pst F) y alpha (h : M pst A) k : (forall a, opy (phi a)) -> opy h -> (forall v, opy (k v)) -> opy (eval_phi phi y alpha h k).
Proof.
  intros Hp Hh Hk s. unfold eval_phi. specialize (Hp alpha s). destruct (phi alpha s) as [t [e|a]]; cbn in *; [|apply Hk].
  destruct y; [destruct e|]; cbn in *; auto; contradiction.
Qed.
Lemma opy_armijo (phi : F -> M pst F) y p0 der am : (forall a, opy (phi a)) -> forall n a, opy (armijo o phi y p0 der am n a).
Proof.
  intros Hp.
  assert (L : forall n a0 q0 a1 q1, opy (armijo_loop o phi y p0 der am n a0 q0 a1 q1)).
  { induction n; intros; cbn [armijo_loop]; [auto with opy|]. destruct (flt o am a1); [|auto with opy].
    cbv zeta. apply opy_eval; [exact Hp|unfold handler; auto with opy|]. intros v. destruct (sufficient _ _ _ _ _); auto with opy. }
  intros. unfold armijo. apply opy_eval; [exact Hp|unfold handler; auto with opy|]. intros v. destruct (sufficient _ _ _ _ _); [auto with opy|].
  cbv zeta. apply opy_eval; [exact Hp|unfold handler; auto with opy|]. intros v2. destruct (sufficient _ _ _ _ _); [auto with opy|]. apply L.
Qed.
Lemma opy_bt y hv n x d eps loss gtd : forall t nl, opy (bt_loop o clo_ls y fuel hv n x d eps loss gtd t nl).
Proof.
  induction n; intros; cbn [bt_loop]; auto with opy. destruct (flt o eps t); auto with opy.
  apply opy_bind; [apply opy_armijo; auto with opy|]. intros r. destruct (ls_stat r); auto with opy. destruct (ls_alpha r); auto with opy.
Qed.
Lemma opy_wolfe n x d t loss g gtd : forall seen, opy (wolfe_loop o clo_g wolfe n x d t loss g gtd seen).
Proof. induction n; intros; cbn [wolfe_loop]; auto with opy. destruct (wolfe _ _ _ _ _ _); auto with opy. Qed.
Lemma opy_need p : opy (need_t p). Proof. unfold need_t. destruct (fst p); auto with opy. Qed.
Hint Resolve opy_bt opy_wolfe opy_need : opy.
Lemma opy_ls g last d t loss fg gtd : opy (line_search o maxabs clo clo_g clo_ls wolfe yastn fuel g last d t loss fg gtd).
Proof.
  unfold line_search. destruct (g_ls g).
  1,2: apply opy_bind; [auto with opy|]; intros _; destruct last; auto with opy.
  - auto 20 with opy.
  - apply opy_bind; [auto with opy|]. intros x. apply opy_bind; [|auto with opy].
    intros s. pose proof (opy_wolfe fuel x d t loss fg gtd [] s) as Hw.
    destruct (wolfe_loop o clo_g wolfe fuel x d t loss fg gtd [] s) as [s1 [e|[[[nl ng] t'] ev]]]; cbn [snd] in Hw |- *; [|exact I].
    destruct yastn; [|exact I]. destruct e; [contradiction|contradiction|exact I].
  - auto with opy.
Qed.
Lemma opy_direction shared l fg : opy (direction (W := W) o shared l fg).
Proof.
  unfold direction. apply opy_bind; [auto with opy|]. intros a. destruct (o_niter a =? 1)%Z; [auto with opy|].
  destruct (m_pg l), (m_d l), (m_t l), (m_dirs l), (m_stps l), (m_ro l), (m_H l); auto with opy.
  apply opy_bind; [auto with opy|]. intros [[[? ?] ?] ?]. apply opy_bind; [destruct shared; auto with opy|]. intros _.
  apply opy_bind; [auto with opy|]. intros _. apply opy_bind; [auto with opy|]. intros [? ?]. auto 10 with opy.
Qed.
Lemma opy_iteration n shared pgs l ev loss fg nl ng :
  opy (iteration o maxabs sumabs clo clo_g clo_ls wolfe yastn fuel n shared pgs l ev loss fg nl ng).
Proof.
  unfold iteration. apply opy_bind; [auto with opy|]. intros a. apply opy_bind; [auto with opy|]. intros _.
  apply opy_bind; [apply opy_direction|]. intros [l' sh']. apply opy_bind; [auto with opy|]. intros a1.
  apply opy_bind; [match goal with |- opy (if ?b then _ else _) => destruct b; auto with opy end|]. intros _. cbv zeta.
  match goal with |- opy (if ?b then _ else _) => destruct b; [auto with opy|] end.
  apply opy_bind; [|auto with opy]. apply opy_ls.
Qed.
Lemma opy_iterations : forall k n shared pgs l ev loss fg nl ng,
  opy (iterations o maxabs sumabs clo clo_g clo_ls wolfe yastn fuel k n shared pgs l ev loss fg nl ng).
Proof.
  induction k; intros; cbn [iterations]; [auto with opy|]. apply opy_bind; [apply opy_iteration|]. intros i. destruct (i_break i); auto with opy.
Qed.
Lemma opy_step nl ng : opy (step_2c o maxabs sumabs clo clo_g clo_ls wolfe yastn fuel nl ng).
Proof.
  unfold step_2c. apply opy_bind; [destruct nl, ng; auto with opy|]. intros [[loss fg] ev]. apply opy_bind; [auto with opy|].
  intros a. destruct (fle o _ _); [auto with opy|]. apply opy_bind; [|intros [[l' nl'] ng']; auto with opy].
  apply opy_iterations.
Qed.
End OnlyPy.
