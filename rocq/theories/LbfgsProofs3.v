From Coq Require Import Reals Lra.
From Verif Require Import Base BaseLemmas Flt Armijo ArmijoProofs Lbfgs LbfgsSpec LbfgsProofs LbfgsProofs2.
Open Scope list_scope.

Section Count.
Context {F : Type} (o : fops F) {W : Type}.
Notation pst := (@pst F W).
Variables maxabs sumabs : list F -> F.
Variable clo clo_g : list (list F) -> W -> W * (exn + F * list F).
Variable clo_ls : list (list F) -> W -> W * (exn + F).
Variable wolfe : F -> list F -> F -> list F -> F -> list (F * F * list F) -> F + (F * list F * F * Z).
Variable yastn : bool.
Variable fuel : nat.
Notation line_search := (line_search o maxabs clo clo_g clo_ls wolfe yastn fuel).
Notation iteration := (iteration o maxabs sumabs clo clo_g clo_ls wolfe yastn fuel).
Notation iterations := (iterations o maxabs sumabs clo clo_g clo_ls wolfe yastn fuel).
Notation step_2c := (step_2c o maxabs sumabs clo clo_g clo_ls wolfe yastn fuel).

(** counter and group are kept *)
Definition keepn {A} (m : M pst A) : Prop := forall s,
  o_niter (p_opt (fst (m s))) = o_niter (p_opt s) /\ o_grp (p_opt (fst (m s))) = o_grp (p_opt s).
Lemma keepn_ret A (a : A) : keepn (ret a). Proof. intros s; split; reflexivity. Qed.
Lemma keepn_raise A e : keepn (raise (A:=A) e). Proof. intros s; split; reflexivity. Qed.
Lemma keepn_bind A B (m : M pst A) (k : A -> M pst B) : keepn m -> (forall a, keepn (k a)) -> keepn (mbind m k).
Proof.
  intros Hm Hk s. unfold mbind. specialize (Hm s). destruct (m s) as [s' [e|a]]; cbn in *; auto.
  destruct (Hk a s') as [A1 A2]. split; [rewrite A1; apply Hm|rewrite A2; apply Hm].
Qed.
Lemma keepn_keeps A (m : M pst A) : keeps m -> keepn m.
Proof. intros H s. rewrite (H s). auto. Qed.
Lemma keepn_put_mem m : keepn (put_mem m). Proof. intros s. split; reflexivity. Qed.
Lemma keepn_put_al m : keepn (put_al m). Proof. intros s. split; reflexivity. Qed.
Lemma keepn_lift A (r : res A) : keepn (lift r). Proof. destruct r; intros s; split; reflexivity. Qed.
Lemma keepn_get : keepn get_opt. Proof. intros s. split; reflexivity. Qed.
Hint Resolve keepn_ret keepn_raise keepn_bind keepn_put_mem keepn_put_al keepn_lift keepn_get : keepn.

Lemma keepn_direction sh l fg : keepn (direction o sh l fg).
Proof.
  unfold direction. apply keepn_bind; [auto with keepn|]. intros a. destruct (o_niter a =? 1)%Z; [auto with keepn|].
  destruct (m_pg l); [|auto with keepn]. destruct (m_d l); [|auto with keepn]. destruct (m_t l); [|auto with keepn].
  destruct (m_dirs l); [|auto with keepn]. destruct (m_stps l); [|auto with keepn]. destruct (m_ro l); [|auto with keepn].
  destruct (m_H l); [|auto with keepn]. apply keepn_bind; [auto with keepn|]. intros [[[ds ss] rs] H].
  apply keepn_bind; [destruct sh; auto with keepn|]. intros []. apply keepn_bind; [auto with keepn|]. intros [].
  apply keepn_bind; [auto with keepn|]. intros [r al]. apply keepn_bind; auto with keepn.
Qed.

(** every iteration, successful or not, adds one to the counter *)
Lemma iteration_count n sh pgs l ev loss fg nl ng s :
  o_niter (p_opt (fst (iteration n sh pgs l ev loss fg nl ng s))) = (o_niter (p_opt s) + 1)%Z /\
  o_grp (p_opt (fst (iteration n sh pgs l ev loss fg nl ng s))) = o_grp (p_opt s).
Proof.
  set (PP := fun x : pst * (exn + it (F:=F)) => o_niter (p_opt (fst x)) = (o_niter (p_opt s) + 1)%Z /\ o_grp (p_opt (fst x)) = o_grp (p_opt s)).
  change (PP (iteration n sh pgs l ev loss fg nl ng s)).
  unfold iteration. unfold mbind at 1, get_opt at 1. unfold mbind at 1, put_niter, mbind at 1, get_opt at 1, put_opt.
  match goal with |- context [?m {| p_x := p_x s; p_opt := ?q; p_w := p_w s |}] =>
    set (s1 := {| p_x := p_x s; p_opt := q; p_w := p_w s |}) end.
  match goal with |- PP (?m s1) => assert (K : keepn m) end.
  { apply keepn_bind; [apply keepn_direction|]. intros [l1 sh1]. apply keepn_bind; [auto with keepn|]. intros a1. cbv zeta.
    apply keepn_bind; [match goal with |- keepn (if ?b then _ else _) => destruct b end; auto with keepn|]. intros [].
    match goal with |- keepn (if ?b then _ else _) => destruct b end; [auto with keepn|].
    apply keepn_bind; [apply keepn_keeps; apply keeps_ls|]. auto with keepn. }
  exact (K s1).
Qed.

Lemma iteration_break n sh pgs l ev loss fg nl ng s s' i :
  flt o (fabs o (fsub o loss loss)) (g_tol_change (o_grp (p_opt s))) = true ->
  iteration n sh pgs l ev loss fg nl ng s = (s', inr i) -> i_break i = true.
Proof.
  intros Ht. unfold iteration. unfold mbind at 1, get_opt at 1. unfold mbind at 1, put_niter, mbind at 1, get_opt at 1, put_opt.
  match goal with |- context [?m {| p_x := p_x s; p_opt := ?q; p_w := p_w s |}] =>
    set (s1 := {| p_x := p_x s; p_opt := q; p_w := p_w s |}) end.
  unfold mbind at 1. pose proof (keepn_direction sh l fg s1) as [_ KD].
  destruct (direction o sh l fg s1) as [s2 [e|[l1 sh1]]]; [discriminate|]. cbn [fst] in KD.
  unfold mbind at 1, get_opt at 1. cbv zeta.
  match goal with |- mbind (if ?b then ?m else ret tt) ?k s2 = _ -> _ => set (K := k); assert (S3 : exists s3, mbind (if b then m else ret tt) K s2 = K tt s3) end.
  { match goal with |- exists _, mbind (if ?b then _ else _) _ _ = _ => destruct b end; eexists; reflexivity. }
  destruct S3 as [s3 ->]. subst K. cbv beta.
  match goal with |- (if ?b then _ else _) _ = _ -> _ => destruct b end.
  - unfold ret. intros H. match type of H with (_, inr ?z) = _ => assert (i = z) by congruence end. subst i. reflexivity.
  - unfold mbind. match goal with |- context [let (_, _) := ?m s3 in _] => destruct (m s3) as [s4 [e|r]] end; [discriminate|].
    unfold ret. intros H. match type of H with (_, inr ?z) = _ => assert (i = z) by congruence end. subst i. cbn [i_break].
    replace (o_grp (p_opt s2)) with (o_grp (p_opt s)) by (rewrite KD; reflexivity). rewrite Ht. apply orb_true_r.
Qed.

(** a call adds at most one, whatever max_iter is *)
Lemma one_iteration nl ng s :
  (forall x : F, flt o (fabs o (fsub o x x)) (g_tol_change (o_grp (p_opt s))) = true) ->
  (o_niter (p_opt (fst (step_2c nl ng s))) <= o_niter (p_opt s) + 1)%Z.
Proof.
  intros Ht. set (PP := fun x : pst * (exn + F * option F * option (list F)) => (o_niter (p_opt (fst x)) <= o_niter (p_opt s) + 1)%Z).
  change (PP (step_2c nl ng s)). unfold step_2c. unfold mbind at 1.
  match goal with |- context [let (_, _) := ?m s in _] => assert (K : p_opt (fst (m s)) = p_opt s); [|destruct (m s) as [s1 [e|[[loss fg] ev]]]] end.
  { destruct nl; [destruct ng|]; [reflexivity| |].
    - unfold mbind, call. destruct (clo _ _) as [w [e|p]]; reflexivity.
    - unfold mbind, call. destruct (clo _ _) as [w [e|p]]; reflexivity. }
  - unfold PP. cbn in *. rewrite K. lia.
  - cbn [fst] in K. unfold mbind at 1, get_opt at 1. rewrite K.
    destruct (fle o (maxabs fg) (g_tol_grad (o_grp (p_opt s)))); [unfold PP; cbn; rewrite K; lia|].
    unfold mbind at 1.
    match goal with |- context [Lbfgs.iterations o maxabs sumabs clo clo_g clo_ls wolfe yastn fuel ?k ?a1 ?a2 ?a3 ?a4 ?a5 ?a6 ?a7 ?a8 ?a9 s1] =>
      assert (I1 : (o_niter (p_opt (fst (iterations k a1 a2 a3 a4 a5 a6 a7 a8 a9 s1))) <= o_niter (p_opt s1) + 1)%Z);
      [|destruct (Lbfgs.iterations o maxabs sumabs clo clo_g clo_ls wolfe yastn fuel k a1 a2 a3 a4 a5 a6 a7 a8 a9 s1) as [s2 [e|[[l nl2] ng2]]]] end.
    { match goal with |- context [Lbfgs.iterations o maxabs sumabs clo clo_g clo_ls wolfe yastn fuel ?kk] => destruct kk as [|k] end; [cbn; lia|].
      cbn [Lbfgs.iterations]. unfold mbind at 1.
      match goal with |- context [Lbfgs.iteration o maxabs sumabs clo clo_g clo_ls wolfe yastn fuel ?a0 ?a1 ?a2 ?a3 ?a4 ?a5 ?a6 ?a7 ?a8 s1] =>
        pose proof (iteration_count a0 a1 a2 a3 a4 a5 a6 a7 a8 s1) as [C _];
        pose proof (iteration_break a0 a1 a2 a3 a4 a5 a6 a7 a8 s1) as B;
        destruct (Lbfgs.iteration o maxabs sumabs clo clo_g clo_ls wolfe yastn fuel a0 a1 a2 a3 a4 a5 a6 a7 a8 s1) as [s2 [e|i]] end; cbn [fst] in C.
      - cbn. lia.
      - rewrite (B s2 i); [|rewrite K; apply Ht|reflexivity]. cbn. lia. }
    + unfold PP. cbn in *. rewrite K in I1. exact I1.
    + unfold PP. cbn in *. rewrite K in I1. exact I1.
Qed.

(** a step that fails before the first direction has been saved leaves an optimizer that cannot
    be used any more *)
Lemma unusable nl ng s loss fg w : (1 <= o_niter (p_opt s))%Z -> m_pg (o_mem (p_opt s)) = None ->
  (1 <= g_max_iter (o_grp (p_opt s)))%Z -> starts clo nl ng s loss fg w ->
  fle o (maxabs fg) (g_tol_grad (o_grp (p_opt s))) = false ->
  snd (step_2c nl ng s) = inl (Py TypeError).
Proof.
  intros Hn Hm Hk St Hf. unfold step_2c. unfold mbind at 1.
  match goal with |- context [let (_, _) := ?m s in _] => assert (K : exists ev, m s = ({| p_x := p_x s; p_opt := p_opt s; p_w := w |}, inr (loss, fg, ev))) end.
  { unfold starts in St. destruct nl; [destruct ng|].
    - destruct St as (-> & -> & ->). exists 0%Z. unfold ret. destruct s; reflexivity.
    - exists 1%Z. unfold mbind, call. rewrite St. reflexivity.
    - exists 1%Z. unfold mbind, call. rewrite St. reflexivity. }
  destruct K as [ev ->]. unfold mbind at 1, get_opt at 1. cbn [p_opt]. rewrite Hf.
  destruct (Z.to_nat (g_max_iter (o_grp (p_opt s)))) as [|k] eqn:Ek; [lia|]. cbn [Lbfgs.iterations].
  unfold mbind at 1 2. unfold iteration. unfold mbind at 1, get_opt at 1. unfold mbind at 1, put_niter, mbind at 1, get_opt at 1, put_opt.
  unfold mbind at 1, direction, mbind at 1, get_opt at 1. cbn [p_opt o_niter].
  destruct (Z.eqb_spec (o_niter (p_opt s) + 1) 1); [lia|]. rewrite Hm. reflexivity.
Qed.
End Count.

(** ** the accepted step decreases the loss *)
Section Decrease.
Context {F : Type} (o : fops F) {W : Type}.
Notation pst := (@pst F W).
Variable P : pst -> Prop.
Variable phi : F -> M pst F.
Variables (y : bool) (p0 der am : F).
Hypothesis Hp : forall a, safe P (fun _ s => P s) (phi a).

(** a result that claims success comes from an evaluation of phi in a state satisfying P *)
Definition evaluated (r : ls_result) (s : pst) : Prop := P s /\
  (ls_stat r = LsTrue -> forall t, ls_alpha r = Some t ->
     exists s1 w, P s1 /\ phi t s1 = (s, inr w) /\ ls_loss r = Some w /\ sufficient o p0 der t w = true).

Lemma safe_eval_phi2 A (Q : A -> pst -> Prop) alpha h k :
  (forall v s1 s2, P s1 -> phi alpha s1 = (s2, inr v) -> P s2 ->
     match k v s2 with (s', inr a) => Q a s' | (_, inl NoFixedPoint) => False | _ => True end) ->
  safe P Q (eval_phi phi y alpha h k).
Proof.
  intros Hk s Hs. unfold eval_phi. pose proof (Hp alpha s Hs) as H. destruct (phi alpha s) as [s' [e|v]] eqn:E.
  - destruct y; destruct e; auto. destruct H.
  - exact (Hk v s s' Hs E H).
Qed.

Lemma ret_evaluated t v s1 s2 : P s1 -> phi t s1 = (s2, inr v) -> P s2 -> sufficient o p0 der t v = true ->
  evaluated {| ls_stat := LsTrue; ls_alpha := Some t; ls_loss := Some v |} s2.
Proof.
  intros H1 H2 H3 H4. split; [exact H3|]. cbn. intros _ t' E. assert (t' = t) by congruence. subst t'. eauto 8.
Qed.

Lemma armijo_evaluated n a : safe P evaluated (armijo o phi y p0 der am n a).
Proof.
  assert (L : forall n a0 q0 a1 q1, safe P evaluated (armijo_loop o phi y p0 der am n a0 q0 a1 q1)).
  { clear n a. induction n; intros a0 q0 a1 q1; cbn [armijo_loop]; [apply safe_raise|]. destruct (flt o am a1).
    - cbv zeta. apply safe_eval_phi2. intros v s1 s2 H1 H2 H3.
      destruct (sufficient _ _ _ _ _) eqn:Es; [|apply IHn; exact H3]. exact (ret_evaluated _ v s1 s2 H1 H2 H3 Es).
    - intros s Hs. split; [exact Hs|]. cbn. discriminate. }
  unfold armijo. apply safe_eval_phi2. intros v s1 s2 H1 H2 H3.
  destruct (sufficient _ _ _ _ _) eqn:Es; [exact (ret_evaluated _ v s1 s2 H1 H2 H3 Es)|].
  cbv zeta. match goal with |- match ?m s2 with _ => _ end => assert (S : safe P evaluated m) end.
  { apply safe_eval_phi2. intros v2 s3 s4 H4 H5 H6. clear Es. destruct (sufficient o p0 der (quad_step o p0 der a v) v2) eqn:Es2; [|apply L; exact H6].
    exact (ret_evaluated _ v2 s3 s4 H4 H5 H6 Es2). }
  exact (S s2 H3).
Qed.
End Decrease.

Section Bt.
Context {F : Type} (o : fops F) {W : Type}.
Notation pst := (@pst F W).
(** a loss that depends on the parameters only *)
Variable f : list (list F) -> F.
Variable maxabs sumabs : list F -> F.
Variable clo clo_g : list (list F) -> W -> W * (exn + F * list F).
Variable wolfe : F -> list F -> F -> list F -> F -> list (F * F * list F) -> F + (F * list F * F * Z).
Variable upd : list (list F) -> W -> W.
Variable yastn : bool.
Variable fuel : nat.
Notation clo_f := (loss_of f upd).
Variable x : list (list F).
Variable d : list F.
Definition at_x (s : pst) : Prop := p_x s = x.

Lemma dir_at_x t : safe at_x (fun _ s => at_x s) (dir_eval o clo_f x d t).
Proof.
  intros s Hs. unfold at_x in Hs. unfold dir_eval, add_grad_m, mbind at 1 2, get_x at 1. rewrite Hs.
  unfold mbind at 1, lift. destruct (add_grad o t d x) as [z|e] eqn:E; [|exact I]. cbn.
  unfold at_x. cbn. apply set_param_same. eapply add_grad_length. exact E.
Qed.
Lemma dir_value t s s' w : at_x s -> dir_eval o clo_f x d t s = (s', inr w) ->
  exists z, add_grad o t d x = Ok z /\ w = f z.
Proof.
  intros Hs. unfold at_x in Hs. unfold dir_eval, add_grad_m, mbind at 1 2, get_x at 1. rewrite Hs.
  unfold mbind at 1, lift. destruct (add_grad o t d x) as [z|e] eqn:E; [|discriminate]. unfold ret, mbind, call, set_param_m, put_x, loss_of, get_x. cbn. intros H. exists z. split; [reflexivity|congruence].
Qed.

(** the loop returns an evaluated step when its first step exceeds eps *)
Definition bt_result (loss gtd : F) (p : option F * option F) (s : pst) : Prop := at_x s /\
  forall t, fst p = Some t -> exists z, add_grad o t d x = Ok z /\ snd p = Some (f z) /\ sufficient o loss gtd t (f z) = true.

Lemma bt_decreases hv n eps loss gtd t nl : flt o eps t = true ->
  safe at_x (fun p s => bt_result loss gtd p s \/ False) (bt_loop o clo_f yastn fuel hv n x d eps loss gtd t nl).
Proof.
  intros Ht. destruct n; cbn [bt_loop]; [apply safe_raise|]. rewrite Ht.
  intros s Hs. unfold mbind.
  pose proof (armijo_evaluated o at_x (dir_eval o clo_f x d) yastn loss gtd (amin o) (fun a => dir_at_x a) fuel (if hv then fdiv o t (fq o 2 1) else t) s Hs) as E.
  assert (St : forall s2 r, armijo o (dir_eval o clo_f x d) yastn loss gtd (amin o) fuel (if hv then fdiv o t (fq o 2 1) else t) s = (s2, inr r) -> ls_stat r = LsTrue).
  { intros s2 r Hr. clear E.
    assert (SS : safe at_x (fun r (s : pst) => ls_stat r = LsTrue) (armijo o (dir_eval o clo_f x d) yastn loss gtd (amin o) fuel (if hv then fdiv o t (fq o 2 1) else t))).
    { clear. assert (L : forall n a0 q0 a1 q1, safe at_x (fun r (s : pst) => ls_stat r = LsTrue) (armijo_loop o (dir_eval o clo_f x d) yastn loss gtd (amin o) n a0 q0 a1 q1)).
      { induction n; intros a0 q0 a1 q1; cbn [armijo_loop]; [apply safe_raise|]. destruct (flt o (amin o) a1).
        - cbv zeta. apply safe_eval_phi; [apply dir_at_x|]. intros v. destruct (sufficient _ _ _ _ _); [intros s Hs; reflexivity|apply IHn].
        - intros s Hs. reflexivity. }
      unfold armijo. apply safe_eval_phi; [apply dir_at_x|]. intros v. destruct (sufficient _ _ _ _ _); [intros s Hs; reflexivity|].
      cbv zeta. apply safe_eval_phi; [apply dir_at_x|]. intros v2. destruct (sufficient _ _ _ _ _); [intros s Hs; reflexivity|]. apply L. }
    specialize (SS s Hs). rewrite Hr in SS. exact SS. }
  destruct (armijo o (dir_eval o clo_f x d) yastn loss gtd (amin o) fuel (if hv then fdiv o t (fq o 2 1) else t) s) as [s2 [e|r]].
  - destruct e; auto.
  - pose proof (St s2 r eq_refl) as Sr. rewrite Sr. unfold ret. left. destruct E as [E1 E2]. split; [exact E1|]. cbn [fst snd].
    intros t' Et. destruct (E2 Sr t' Et) as (s1 & w & P1 & Ph & Hl & Hs2). destruct (dir_value _ _ _ _ P1 Ph) as (z & Ez & ->).
    exists z. auto.
Qed.

Lemma ls_decreases g last t loss fg gtd (s s' : pst) r : g_ls g = LSbacktracking -> at_x s -> flt o (g_ls_eps g) t = true ->
  line_search o maxabs clo clo_g clo_f wolfe yastn fuel g last d t loss fg gtd s = (s', inr r) ->
  add_grad o (lo_t r) d x = Ok (p_x s') /\ lo_loss r = Some (f (p_x s')) /\ sufficient o loss gtd (lo_t r) (f (p_x s')) = true.
Proof.
  intros Hg Hs Ht. unfold line_search. rewrite Hg. unfold mbind at 1, get_x at 1. rewrite Hs.
  unfold mbind at 1. pose proof (bt_decreases false fuel (g_ls_eps g) loss gtd t None Ht s Hs) as B.
  destruct (bt_loop o clo_f yastn fuel false fuel x d (g_ls_eps g) loss gtd t None s) as [s2 [e|p]]; [discriminate|].
  destruct B as [[B1 B2]|[]]. unfold mbind at 1, need_t. destruct (fst p) as [t'|] eqn:Ep; [|discriminate].
  destruct (B2 t' eq_refl) as (z & Ez & Hl & Hsu). unfold ret at 1. cbn [fst snd].
  unfold mbind at 1, add_grad_m, mbind at 1, get_x at 1. rewrite B1. unfold mbind at 1, lift. rewrite Ez. cbn.
  unfold ret. intros H. match type of H with (?u, inr ?q) = _ => assert (s' = u) by congruence; assert (r = q) by congruence end.
  subst s' r. cbn. auto.
Qed.
End Bt.
