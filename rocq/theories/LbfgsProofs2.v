From Verif Require Import Base BaseLemmas Flt Armijo Lbfgs LbfgsSpec LbfgsProofs.
Open Scope list_scope.

(** ** parameters *)
Section Params.
Context {F : Type} (o : fops F).

Lemma map2_app (f : F -> F -> F) a b c d : length a = length b -> map2 f (a ++ c) (b ++ d) = map2 f a b ++ map2 f c d.
Proof. revert b. induction a; intros [|y b] H; cbn in *; try lia; f_equal; auto. Qed.
Lemma map2_length (f : F -> F -> F) a b : length (map2 f a b) = Nat.min (length a) (length b).
Proof. revert b. induction a; intros [|y b]; cbn; auto. Qed.

Lemma skipn_add {A} : forall m n (l : list A), skipn n (skipn m l) = skipn (m + n) l.
Proof. induction m; intros n [|y l]; cbn; auto. destruct n; reflexivity. Qed.

Lemma add_grad_from_spec t d : forall ps off ps', add_grad_from o off t d ps = Ok ps' ->
  map (@length F) ps' = map (@length F) ps /\
  concat ps' = vaxpy o t (concat ps) (firstn (length (concat ps)) (skipn off d)).
Proof.
  induction ps as [|p ps IH]; intros off ps' H; cbn in H.
  - assert (ps' = []) by congruence. subst. split; reflexivity.
  - destruct (Nat.eqb_spec (length (firstn (length p) (skipn off d))) (length p)) as [E|E]; [|discriminate].
    destruct (add_grad_from o (off + length p) t d ps) as [r|] eqn:Er; [|discriminate]. cbn in H.
    assert (ps' = vaxpy o t p (firstn (length p) (skipn off d)) :: r) by congruence. subst ps'. clear H.
    destruct (IH _ _ Er) as [I1 I2]. cbn [map concat]. split.
    + f_equal; [|exact I1]. unfold vaxpy. rewrite map2_length, E. apply Nat.min_id.
    + rewrite I2, app_length. unfold vaxpy. rewrite <- map2_app by (symmetry; exact E). f_equal.
      match goal with |- _ = firstn ?n _ => rewrite <- (firstn_skipn (length p) (skipn off d)) at 2 end.
      rewrite firstn_app, E.
      replace (length p + length (concat ps) - length p)%nat with (length (concat ps)) by lia.
      rewrite (firstn_all2 (firstn (length p) (skipn off d))) by (rewrite E; lia).
      f_equal. f_equal. rewrite skipn_add. reflexivity.
Qed.

Lemma set_param_same : forall (ps x : list (list F)), length ps = length x -> set_param ps x = x.
Proof. induction ps; intros [|q x] H; cbn in *; try lia; auto. f_equal. auto. Qed.

Lemma add_grad_length t d ps ps' : add_grad o t d ps = Ok ps' -> length ps' = length ps.
Proof. intros H. apply add_grad_from_spec in H. destruct H as [H _]. apply (f_equal (@length _)) in H. rewrite !map_length in H. exact H. Qed.
End Params.

Section Along.
Context {F : Type} (o : fops F) {W : Type}.
Notation pst := (@pst F W).
Variables maxabs sumabs : list F -> F.
Variable clo clo_g : list (list F) -> W -> W * (exn + F * list F).
Variable clo_ls : list (list F) -> W -> W * (exn + F).
Variable wolfe : F -> list F -> F -> list F -> F -> list (F * F * list F) -> F + (F * list F * F * Z).
Variable yastn : bool.
Variable fuel : nat.
Notation line_search := (line_search o maxabs clo clo_g clo_ls wolfe yastn fuel).
Notation iteration := (iteration o maxabs sumabs clo clo_g clo_ls wolfe yastn fuel).
Notation iterations := (iterations o maxabs sumabs clo clo_g clo_ls wolfe yastn fuel).
Notation step_2c := (step_2c o maxabs sumabs clo clo_g clo_ls wolfe yastn fuel).

(** the closures leave a trace of the parameters they were called with *)
Variable tr : W -> list (list (list F)).
Hypothesis tr_ls : forall x w, tr (fst (clo_ls x w)) = tr w ++ [x].
Hypothesis tr_g : forall x w, tr (fst (clo_g x w)) = tr w ++ [x].
Hypothesis nofp_ls : forall x w, snd (clo_ls x w) <> inl NoFixedPoint.
Hypothesis nofp_g : forall x w, snd (clo_g x w) <> inl NoFixedPoint.

(** a computation keeps P on success and never raises NoFixedPoint *)
Definition safe {A} (P : pst -> Prop) (Q : A -> pst -> Prop) (m : M pst A) : Prop := forall s, P s ->
  match m s with (s', inr a) => Q a s' | (_, inl NoFixedPoint) => False | _ => True end.

Lemma safe_ret A (P : pst -> Prop) (Q : A -> pst -> Prop) a : (forall s, P s -> Q a s) -> safe P Q (ret a).
Proof. intros H s Hs. apply H. exact Hs. Qed.
Lemma safe_raise A (P : pst -> Prop) (Q : A -> pst -> Prop) e : safe P Q (raise (Py e)).
Proof. intros s Hs. exact I. Qed.
Lemma safe_bind A B (P : pst -> Prop) (Q : A -> pst -> Prop) (R : B -> pst -> Prop) (m : M pst A) k :
  safe P Q m -> (forall a, safe (Q a) R (k a)) -> safe P R (mbind m k).
Proof.
  intros Hm Hk s Hs. unfold mbind. specialize (Hm s Hs). destruct (m s) as [s' [e|a]]; [destruct e; auto|]. apply Hk. exact Hm.
Qed.

Variable x : list (list F).
Variable d : list F.
Variable tr0 : list (list (list F)).

(** at x, having evaluated only points on the line through x along d *)
Definition on_line (y : list (list F)) : Prop := exists t, add_grad o t d x = Ok y.
Definition along (s : pst) : Prop := p_x s = x /\ exists pts, tr (p_w s) = tr0 ++ pts /\ Forall on_line pts.

Lemma safe_add t : safe along (fun _ s => exists y, add_grad o t d x = Ok y /\ p_x s = y /\ exists pts, tr (p_w s) = tr0 ++ pts /\ Forall on_line pts) (add_grad_m o t d).
Proof.
  intros s [Hx Ht]. unfold add_grad_m, mbind, get_x, lift. rewrite Hx. destruct (add_grad o t d x) as [y|e] eqn:E.
  - cbn. eauto.
  - cbn. exact I.
Qed.

Lemma safe_dir t : safe along (fun _ s => along s) (dir_eval o clo_ls x d t).
Proof.
  unfold dir_eval. eapply safe_bind; [apply safe_add|]. intros [].
  intros s (y & Ey & Hy & pts & Hp & Ho). unfold mbind, call. rewrite Hy.
  pose proof (tr_ls y (p_w s)) as T. pose proof (nofp_ls y (p_w s)) as N.
  destruct (clo_ls y (p_w s)) as [w [e|l]]; cbn in *.
  - destruct e; auto.
  - split; [apply set_param_same; eapply add_grad_length; exact Ey|]. exists (pts ++ [y]). cbn. rewrite T, Hp, app_assoc.
    split; [reflexivity|]. apply Forall_app. split; [exact Ho|]. constructor; [|constructor]. exists t. exact Ey.
Qed.
Lemma safe_dir_g t : safe along (fun _ s => along s) (dir_eval_g o clo_g x d t).
Proof.
  unfold dir_eval_g. eapply safe_bind; [apply safe_add|]. intros [].
  intros s (y & Ey & Hy & pts & Hp & Ho). unfold mbind, call. rewrite Hy.
  pose proof (tr_g y (p_w s)) as T. pose proof (nofp_g y (p_w s)) as N.
  destruct (clo_g y (p_w s)) as [w [e|l]]; cbn in *.
  - destruct e; auto.
  - split; [apply set_param_same; eapply add_grad_length; exact Ey|]. exists (pts ++ [y]). cbn. rewrite T, Hp, app_assoc.
    split; [reflexivity|]. apply Forall_app. split; [exact Ho|]. constructor; [|constructor]. exists t. exact Ey.
Qed.

Lemma safe_eval_phi A (P : pst -> Prop) (Q : A -> pst -> Prop) (phi : F -> M pst F) y alpha h k :
  safe P (fun _ s => P s) (phi alpha) -> (forall v, safe P Q (k v)) -> safe P Q (eval_phi phi y alpha h k).
Proof.
  intros Hp Hk s Hs. unfold eval_phi. specialize (Hp s Hs). destruct (phi alpha s) as [s' [e|v]].
  - destruct y; destruct e; auto. destruct Hp.
  - apply Hk. exact Hp.
Qed.

Lemma safe_armijo (P : pst -> Prop) phi y p0 der am : (forall a, safe P (fun _ s => P s) (phi a)) ->
  forall n a, safe P (fun _ s => P s) (armijo o phi y p0 der am n a).
Proof.
  intros Hp.
  assert (L : forall n a0 q0 a1 q1, safe P (fun _ s => P s) (armijo_loop o phi y p0 der am n a0 q0 a1 q1)).
  { induction n; intros; cbn [armijo_loop]; [apply safe_raise|]. destruct (flt o am a1); [|apply safe_ret; auto].
    cbv zeta. apply safe_eval_phi; [apply Hp|]. intros v. destruct (sufficient _ _ _ _ _); [apply safe_ret; auto|]. apply IHn. }
  intros. unfold armijo. apply safe_eval_phi; [apply Hp|]. intros v. destruct (sufficient _ _ _ _ _); [apply safe_ret; auto|].
  cbv zeta. apply safe_eval_phi; [apply Hp|]. intros v2. destruct (sufficient _ _ _ _ _); [apply safe_ret; auto|]. apply L.
Qed.

Lemma safe_bt y hv n eps loss gtd : forall t nl, safe along (fun _ s => along s) (bt_loop o clo_ls y fuel hv n x d eps loss gtd t nl).
Proof.
  induction n; intros; cbn [bt_loop]; [apply safe_raise|]. destruct (flt o eps t); [|apply safe_ret; auto].
  eapply safe_bind; [apply safe_armijo; intros a; apply safe_dir|]. intros r.
  destruct (ls_stat r); [apply safe_ret; auto|]. destruct (ls_alpha r); [apply IHn|apply safe_raise].
Qed.
Lemma safe_wolfe n t loss g gtd : forall seen, safe along (fun _ s => along s) (wolfe_loop o clo_g wolfe n x d t loss g gtd seen).
Proof.
  induction n; intros; cbn [wolfe_loop]; [apply safe_raise|]. destruct (wolfe _ _ _ _ _ _); [|apply safe_ret; auto].
  eapply safe_bind; [apply safe_dir_g|]. intros lg. apply IHn.
Qed.

(** after the step: at x + t d, having evaluated only points along d (the closure evaluated after
    a step without line search sees the new point, which is on the line as well) *)
Definition moved (t : F) (s : pst) : Prop :=
  add_grad o t d x = Ok (p_x s) /\ exists pts, tr (p_w s) = tr0 ++ pts /\ Forall on_line pts.

Hypothesis tr_c : forall x w, tr (fst (clo x w)) = tr w ++ [x].
Hypothesis nofp_c : forall x w, snd (clo x w) <> inl NoFixedPoint.

Lemma safe_move t : safe along (fun _ s => moved t s) (add_grad_m o t d).
Proof.
  intros s Hs. pose proof (safe_add t s Hs) as H. destruct (add_grad_m o t d s) as [s' [[]|u]]; auto.
  destruct H as (y & E & Hy & H). split; [subst y; exact E|exact H].
Qed.

Lemma safe_ls g last t loss fg gtd : safe along (fun r s => moved (lo_t r) s) (line_search g last d t loss fg gtd).
Proof.
  assert (N : safe along (fun r s => moved (lo_t r) s)
    (_ <-- add_grad_m o t d ;;
      if last then ret {| lo_t := t; lo_loss := None; lo_grad := None; lo_evals := 0; lo_cond := false |}
      else lg <-- call clo ;;
           ret {| lo_t := t; lo_loss := Some (fst lg); lo_grad := Some (snd lg); lo_evals := 1;
                  lo_cond := fle o (maxabs (snd lg)) (g_tol_grad g) |})%st).
  { eapply safe_bind; [apply safe_move|]. intros []. destruct last; [apply safe_ret; auto|].
    intros s (E & pts & Hp & Ho). unfold mbind, call.
    pose proof (tr_c (p_x s) (p_w s)) as T. pose proof (nofp_c (p_x s) (p_w s)) as NN.
    destruct (clo (p_x s) (p_w s)) as [w [e|l]]; cbn in *; [destruct e; auto|].
    split; [exact E|]. exists (pts ++ [p_x s]). cbn. rewrite T, Hp, app_assoc. split; [reflexivity|].
    apply Forall_app. split; [exact Ho|]. constructor; [|constructor]. exists t. exact E. }
  unfold line_search. destruct (g_ls g); auto.
  - eapply safe_bind with (Q := fun x' s => x' = x /\ along s).
    { intros s Hs. cbn. split; [apply Hs|exact Hs]. }
    intros x' s [-> Hs]. revert s Hs.
    eapply safe_bind; [apply safe_bt|]. intros p. eapply safe_bind with (Q := fun _ s => along s).
    { unfold need_t. destruct (fst p); [apply safe_ret; auto|apply safe_raise]. }
    intros tl. eapply safe_bind; [apply safe_move|]. intros []. apply safe_ret. auto.
  - eapply safe_bind with (Q := fun x' s => x' = x /\ along s).
    { intros s Hs. cbn. split; [apply Hs|exact Hs]. }
    intros x' s [-> Hs]. revert s Hs.
    eapply safe_bind with (Q := fun r s => along s).
    { intros s Hs. pose proof (safe_wolfe fuel t loss fg gtd [] s Hs) as H.
      destruct (wolfe_loop _ _ _ _ _ _ _ _ _ _ _ s) as [s' [e|[[[nl ng] t'] ev]]]; [|exact H].
      destruct yastn; [|exact I]. destruct e; auto. destruct H. }
    intros r. eapply safe_bind; [apply safe_move|]. intros []. apply safe_ret. auto.
  - apply safe_raise.
Qed.
End Along.

Section Values.
Context {F : Type} (o : fops F) {W : Type}.
Notation pst := (@pst F W).

(** where the direction comes from *)
Lemma direction_value shared l fg (s : pst) s' l' sh' : direction o shared l fg s = (s', inr (l', sh')) ->
  (o_niter (p_opt s) = 1%Z /\ m_d l' = Some (vneg o fg) /\ m_dirs l' = Some [] /\ m_stps l' = Some [] /\ m_ro l' = Some [] /\ m_H l' = Some (one o)) \/
  (o_niter (p_opt s) <> 1%Z /\ exists dirs stps ro H al al' d pg d0 t0 dirs0 stps0 ro0 H0,
     m_pg l = Some pg /\ m_d l = Some d0 /\ m_t l = Some t0 /\ m_dirs l = Some dirs0 /\ m_stps l = Some stps0 /\ m_ro l = Some ro0 /\ m_H l = Some H0 /\
     memory_update o (g_hist (o_grp (p_opt s))) dirs0 stps0 ro0 H0 (vsub o fg pg) (vscale o t0 d0) = Ok (dirs, stps, ro, H) /\
     m_dirs l' = Some dirs /\ m_stps l' = Some stps /\ m_ro l' = Some ro /\ m_H l' = Some H /\ m_d l' = Some d /\
     two_loop o dirs stps ro H al fg = Ok (d, al')).
Proof.
  unfold direction, mbind at 1, get_opt at 1. destruct (Z.eqb_spec (o_niter (p_opt s)) 1) as [E|E].
  - unfold ret. intros H. assert (Hl : l' = {| m_d := Some (vneg o fg); m_t := m_t l; m_dirs := Some []; m_stps := Some []; m_ro := Some [];
            m_H := Some (one o); m_pg := m_pg l; m_pl := m_pl l |}) by congruence. subst l'. left. repeat split; auto.
  - destruct (m_pg l) as [pg|] eqn:E1; [|discriminate]. destruct (m_d l) as [d0|] eqn:E2; [|discriminate].
    destruct (m_t l) as [t0|] eqn:E3; [|discriminate]. destruct (m_dirs l) as [ds|] eqn:E4; [|discriminate].
    destruct (m_stps l) as [ss|] eqn:E5; [|discriminate]. destruct (m_ro l) as [rs|] eqn:E6; [|discriminate].
    destruct (m_H l) as [H0|] eqn:E7; [|discriminate].
    unfold mbind at 1, lift at 1. destruct (memory_update _ _ _ _ _ _ _ _) as [[[[dirs stps] ro] H]|] eqn:EM; [|discriminate].
    intros Hr. right. split; [exact E|]. 
    set (al := match o_al (p_opt s) with Some al => al | None => repeat None (Z.to_nat (g_hist (o_grp (p_opt s)))) end) in *.
    assert (G : forall s1 s2, mbind (lift (two_loop o dirs stps ro H al fg))
        (fun p => let '(r, al) := p in mbind (put_al al) (fun _ => ret ({| m_d := Some r; m_t := Some t0; m_dirs := Some dirs; m_stps := Some stps; m_ro := Some ro;
                m_H := Some H; m_pg := Some pg; m_pl := m_pl l |}, shared))) (s1 : pst) = (s2, inr (l', sh')) ->
        exists d al', two_loop o dirs stps ro H al fg = Ok (d, al') /\ l' = {| m_d := Some d; m_t := Some t0; m_dirs := Some dirs; m_stps := Some stps; m_ro := Some ro;
                m_H := Some H; m_pg := Some pg; m_pl := m_pl l |}).
    { intros s1 s2. unfold put_al, mbind, get_opt, put_opt, ret, lift. destruct (two_loop o dirs stps ro H al fg) as [[d al']|]; [|discriminate].
      cbn. intros Hx. exists d, al'. split; [reflexivity|]. congruence. }
    destruct shared.
    + cbn in Hr. apply G in Hr. destruct Hr as (d & al' & Ht & ->).
      exists dirs, stps, ro, H, al, al', d, pg, d0, t0, ds, ss, rs, H0. repeat split; auto.
    + cbn in Hr. apply G in Hr. destruct Hr as (d & al' & Ht & ->).
      exists dirs, stps, ro, H, al, al', d, pg, d0, t0, ds, ss, rs, H0. repeat split; auto.
Qed.

Variables maxabs sumabs : list F -> F.
Variable clo clo_g : list (list F) -> W -> W * (exn + F * list F).
Variable clo_ls : list (list F) -> W -> W * (exn + F).
Variable wolfe : F -> list F -> F -> list F -> F -> list (F * F * list F) -> F + (F * list F * F * Z).
Variable yastn : bool.
Variable fuel : nat.
Notation line_search := (line_search o maxabs clo clo_g clo_ls wolfe yastn fuel).
Notation iteration := (iteration o maxabs sumabs clo clo_g clo_ls wolfe yastn fuel).
Notation iterations := (iterations o maxabs sumabs clo clo_g clo_ls wolfe yastn fuel).
Notation step_2c := (step_2c o maxabs sumabs clo clo_g clo_ls wolfe yastn fuel).

(** what one successful iteration does *)
Lemma iteration_effect acc n shared pgs l ev loss fg nl ng (s s' : pst) i : pre o acc shared l (p_opt s) ->
  iteration n shared pgs l ev loss fg nl ng s = (s', inr i) ->
  exists d s3, m_d (i_mem i) = Some d /\ m_pg (i_mem i) = Some fg /\ m_pl (i_mem i) = Some loss /\
    p_x s3 = p_x s /\ p_w s3 = p_w s /\ o_niter (p_opt s3) = (o_niter (p_opt s) + 1)%Z /\
    let t0 := first_step o sumabs (o_niter (p_opt s) + 1) (g_lr (o_grp (p_opt s))) fg in
    (flt o (fneg o (g_tol_change (o_grp (p_opt s)))) (vdot o fg d) = true /\ s' = s3 /\ i_break i = true /\ m_t (i_mem i) = Some t0 /\ i_loss i = nl /\ i_grad i = ng \/
     flt o (fneg o (g_tol_change (o_grp (p_opt s)))) (vdot o fg d) = false /\
     exists r, line_search (o_grp (p_opt s)) (n =? g_max_iter (o_grp (p_opt s)))%Z d t0 loss fg (vdot o fg d) s3 = (s', inr r) /\
       m_t (i_mem i) = Some (lo_t r) /\ i_loss i = lo_loss r /\ i_grad i = lo_grad r /\
       i_break i = (n =? g_max_iter (o_grp (p_opt s)))%Z || (g_max_eval (o_grp (p_opt s)) <=? ev + lo_evals r)%Z || lo_cond r ||
               fle o (maxabs (vscale o (lo_t r) d)) (g_tol_change (o_grp (p_opt s))) ||
               flt o (fabs o (fsub o loss loss)) (g_tol_change (o_grp (p_opt s)))).
Proof.
  intros P. set (a := p_opt s) in *. unfold iteration. unfold mbind at 1, get_opt at 1.
  unfold mbind at 1, put_niter, get_opt at 1, mbind at 1, put_opt at 1.
  fold a. set (s1 := {| p_x := p_x s; p_opt := {| o_grp := o_grp a; o_niter := o_niter a + 1; o_mem := o_mem a; o_al := o_al a |}; p_w := p_w s |}).
  unfold mbind at 1. pose proof (direction_hist o acc shared l fg s1 a P eq_refl (fun _ _ => I)) as D.
  destruct (direction o shared l fg s1) as [s2 [e|[l2 sh2]]]; [discriminate|].
  destruct D as (Dx & Dw & P2 & Dg & Dn & Dpg & Dpl & Dmpg & (d & Dd) & _).
  unfold mbind at 1, get_opt at 1. cbv zeta.
  set (pgs' := match m_pg l2 with Some _ => pgs | None => false end).
  match goal with |- mbind (if pgs' then ?m else ret tt) ?k s2 = _ -> _ => set (K := k); set (pm := m) end.
  assert (S3 : exists s3, mbind (if pgs' then pm else ret tt) K s2 = K tt s3 /\
     p_x s3 = p_x s /\ p_w s3 = p_w s /\ o_niter (p_opt s3) = (o_niter a + 1)%Z).
  { destruct pgs'.
    - unfold pm, mbind at 1, put_mem, mbind, get_opt, put_opt. eexists. split; [reflexivity|]. cbn. auto.
    - exists s2. auto. }
  destruct S3 as (s3 & -> & X3 & W3 & N3). subst K. cbv beta zeta. rewrite Dd, Dg, Dn.
  intros H. exists d, s3.
  destruct (flt o (fneg o (g_tol_change (o_grp a))) (vdot o fg d)) eqn:Eb.
  { unfold ret in H. assert (s' = s3) by congruence.
    assert (i_eq : i = {| i_mem := {| m_d := Some d; m_t := Some (first_step o sumabs (o_niter a + 1) (g_lr (o_grp a)) fg); m_dirs := m_dirs l2; m_stps := m_stps l2; m_ro := m_ro l2; m_H := m_H l2;
              m_pg := Some fg; m_pl := Some loss |}; i_shared := sh2; i_pgshared := pgs'; i_break := true; i_loss := nl; i_grad := ng; i_evals := ev |}) by congruence.
    subst i s'. cbn. repeat split; auto. left. repeat split; auto. }
  unfold mbind in H.
  match type of H with context [let (_, _) := ?m s3 in _] => destruct (m s3) as [s4 [e|r]] eqn:EL end; [discriminate|].
  unfold ret in H. assert (s' = s4) by congruence. subst s4.
  match type of H with (_, inr ?z) = _ => assert (Ei : i = z) by congruence end. subst i. cbn.
  repeat split; auto. right. split; [reflexivity|]. exists r. auto.
Qed.

Notation starts := (starts clo).

(** a successful step with max_iter = 1 *)
Lemma step1 acc nl ng (s s' : pst) r : (1 <= g_hist (o_grp (p_opt s)))%Z -> history o acc (p_opt s) ->
  g_max_iter (o_grp (p_opt s)) = 1%Z -> step_2c nl ng s = (s', inr r) ->
  exists loss fg w, starts nl ng s loss fg w /\ fst (fst r) = loss /\
   (fle o (maxabs fg) (g_tol_grad (o_grp (p_opt s))) = true /\ s' = {| p_x := p_x s; p_opt := p_opt s; p_w := w |} /\ r = (loss, None, None) \/
    fle o (maxabs fg) (g_tol_grad (o_grp (p_opt s))) = false /\
    history o (acc ++ (if (o_niter (p_opt s) =? 0)%Z then [] else accepted o (last_pair o (o_mem (p_opt s)) fg))) (p_opt s') /\
    o_niter (p_opt s') = (o_niter (p_opt s) + 1)%Z /\
    m_pg (o_mem (p_opt s')) = Some fg /\ m_pl (o_mem (p_opt s')) = Some loss /\
    exists d t s3, m_d (o_mem (p_opt s')) = Some d /\ m_t (o_mem (p_opt s')) = Some t /\ p_x s3 = p_x s /\ p_w s3 = w /\
     let t0 := first_step o sumabs (o_niter (p_opt s) + 1) (g_lr (o_grp (p_opt s))) fg in
     (flt o (fneg o (g_tol_change (o_grp (p_opt s)))) (vdot o fg d) = true /\ p_x s' = p_x s /\ p_w s' = w /\ t = t0 /\ snd (fst r) = nl /\ snd r = ng \/
      flt o (fneg o (g_tol_change (o_grp (p_opt s)))) (vdot o fg d) = false /\
      exists s4 lo, line_search (o_grp (p_opt s)) true d t0 loss fg (vdot o fg d) s3 = (s4, inr lo) /\ t = lo_t lo /\
        p_x s' = p_x s4 /\ p_w s' = p_w s4 /\ snd (fst r) = lo_loss lo /\ snd r = lo_grad lo)).
Proof.
  intros Hh H Hm. unfold step_2c. unfold mbind at 1.
  match goal with |- context [let (_, _) := ?m s in _] => destruct (m s) as [s1 [e|[[loss fg] ev]]] eqn:Em end; [discriminate|].
  assert (S1 : starts nl ng s loss fg (p_w s1) /\ p_x s1 = p_x s /\ p_opt s1 = p_opt s).
  { unfold starts. revert Em. destruct nl; [destruct ng|].
    - unfold ret. intros E. assert (s1 = s) by congruence. subst. split; [|auto]. repeat split; congruence.
    - unfold mbind, call. destruct (clo _ _) as [w [e|[p q]]]; [discriminate|]. unfold ret. cbn. intros E.
      match type of E with (?z, _) = _ => assert (s1 = z) by congruence end. subst s1. cbn. split; [|auto]. congruence.
    - unfold mbind, call. destruct (clo _ _) as [w [e|[p q]]]; [discriminate|]. unfold ret. cbn. intros E.
      match type of E with (?z, _) = _ => assert (s1 = z) by congruence end. subst s1. cbn. split; [|auto]. congruence. }
  destruct S1 as (St & X1 & O1). unfold mbind at 1, get_opt at 1. rewrite O1, Hm.
  destruct (fle o (maxabs fg) (g_tol_grad (o_grp (p_opt s)))) eqn:Ef.
  { unfold ret. intros E. exists loss, fg, (p_w s1). split; [exact St|]. assert (r = (loss, None, None)) by congruence. subst r.
    split; [reflexivity|]. left. split; [exact Ef|]. split; [|reflexivity]. assert (s' = s1) by congruence. subst s'.
    destruct s1; cbn in *; congruence. }
  unfold mbind at 1. change (Z.to_nat 1) with 1%nat. cbn [Lbfgs.iterations].
  unfold mbind at 1.
  match goal with |- context [Lbfgs.iteration o maxabs sumabs clo clo_g clo_ls wolfe yastn fuel ?a0 ?a1 ?a2 ?a3 ?a4 ?a5 ?a6 ?a7 ?a8 s1] =>
    assert (PR : pre o acc a1 a3 (p_opt s1)) by (rewrite O1; apply history_pre; auto);
    pose proof (iteration_hist o maxabs sumabs clo clo_g clo_ls wolfe yastn fuel acc a0 a1 a2 a3 a4 a5 a6 a7 a8 s1 PR) as I1;
    pose proof (iteration_effect acc a0 a1 a2 a3 a4 a5 a6 a7 a8 s1) as I2;
    destruct (Lbfgs.iteration o maxabs sumabs clo clo_g clo_ls wolfe yastn fuel a0 a1 a2 a3 a4 a5 a6 a7 a8 s1) as [s2 [e|i]] end; [discriminate|].
  match goal with |- context [if i_break i then ?A else ?B] => replace (if i_break i then A else B) with A by (destruct (i_break i); reflexivity) end.
  destruct (I2 _ _ PR eq_refl) as (d & s3 & Id & Ipg & Ipl & X3 & W3 & N3 & Ic). clear I2.
  destruct I1 as (G & N & P & _). rewrite O1 in *. unfold ret, put_mem, mbind, get_opt, put_opt. intros E.
  match type of E with (?z, inr ?q) = _ => assert (s' = z) by congruence; assert (r = q) by congruence end. subst s' r. cbn [p_x p_opt p_w o_mem o_niter fst snd].
  exists loss, fg, (p_w s1). split; [exact St|]. split; [reflexivity|]. right. split; [exact Ef|].
  split.
  { assert (FN : pre o (acc ++ (if (o_niter (p_opt s) =? 0)%Z then [] else accepted o (last_pair o (o_mem (p_opt s)) fg))) true (i_mem i) (with_mem (i_mem i) (p_opt s2))).
    { destruct P as (P1 & P2 & P3 & P4 & P5). split; [exact P1|]. split; [exact P2|]. split; [exact P3|]. split; [exact P4|].
      split; [repeat split|]. intros Hn. cbn in Hn. destruct (i_shared i); [apply P5; exact Hn|lia]. }
    apply pre_history in FN. exact FN. }
  split; [exact N|]. split; [exact Ipg|]. split; [exact Ipl|].
  cbv zeta in Ic. destruct Ic as [(C1 & -> & C3 & C4 & C5 & C6)|(C1 & lo & C2 & C3 & C4 & C5 & C6)].
  - exists d, (first_step o sumabs (o_niter (p_opt s) + 1) (g_lr (o_grp (p_opt s))) fg), s3.
    split; [exact Id|]. split; [exact C4|]. split; [congruence|]. split; [exact W3|]. cbv zeta. left. repeat split; auto; congruence.
  - exists d, (lo_t lo), s3. split; [exact Id|]. split; [exact C3|]. split; [congruence|]. split; [exact W3|]. cbv zeta. right.
    split; [exact C1|]. exists s2, lo. rewrite Hm in C2. repeat split; auto.
Qed.
End Values.
