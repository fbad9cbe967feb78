(** Proofs of the statements in LbfgsProps.v from the lemmas. *)
From Coq Require Import Reals QArith Lra.
From Verif Require Import Base BaseLemmas Flt Armijo ArmijoSpec ArmijoProofs Lbfgs LbfgsSpec FdGrad FdSpec LbfgsExamples
  LbfgsProofs LbfgsProofs2 LbfgsProofs3 LbfgsDir FdProofs.
Open Scope list_scope.

Section W.
Context {F : Type} (o : fops F).

Lemma ran_history (g : grp F) (a : opt F) : (1 <= g_hist g)%Z -> ran o g a -> o_grp a = g /\ exists acc, history o acc a.
Proof.
  intros Hg R. induction R as [|W maxabs sumabs clo clo_g clo_ls wolfe yastn fuel nl ng s R [IG [acc IH]]].
  - split; [reflexivity|]. exists []. split; [cbn; lia|]. split; [constructor|]. split; [|exact I]. left. repeat split.
  - destruct (step_hist o maxabs sumabs clo clo_g clo_ls wolfe yastn fuel acc nl ng s) as [G [new H]]; [rewrite IG; exact Hg|exact IH|].
    split; [congruence|]. eauto.
Qed.

Lemma ran_bounded (g : grp F) (a : opt F) : (1 <= g_hist g)%Z -> ran o g a ->
  forall dirs stps ro, m_dirs (o_mem a) = Some dirs -> m_stps (o_mem a) = Some stps -> m_ro (o_mem a) = Some ro ->
  length dirs = length stps /\ length dirs = length ro /\ (Z.of_nat (length dirs) <= g_hist g)%Z /\
  forall i y s r, nth_error dirs i = Some y -> nth_error stps i = Some s -> nth_error ro i = Some r ->
    flt o (fq o 1 10000000000) (vdot o y s) = true /\ r = fdiv o (fq o 1 1) (vdot o y s).
Proof.
  intros Hg R dirs stps ro H1 H2 H3. destruct (ran_history g a Hg R) as [G [acc (_ & A & [[_ (N & _)]|[_ (L1 & L2 & L3)]] & _)]]; [congruence|].
  rewrite G in *. set (h := Z.to_nat (g_hist g)) in *.
  assert (dirs = map fst (lastn h acc)) by congruence. assert (stps = map snd (lastn h acc)) by congruence.
  assert (ro = map (fun p => fdiv o (fq o 1 1) (vdot o (fst p) (snd p))) (lastn h acc)) by congruence. subst dirs stps ro.
  rewrite !map_length. split; [reflexivity|]. split; [reflexivity|]. split; [rewrite lastn_length; unfold h; lia|].
  intros i y s r Hy Hs Hr. rewrite nth_error_map in *. destruct (nth_error (lastn h acc) i) as [[y' s']|] eqn:E; [|discriminate].
  cbn [fst snd option_map] in *. assert (y' = y) by congruence. assert (s' = s) by congruence. subst y' s'. split; [|congruence].
  apply nth_error_In in E. unfold lastn in E. apply (Forall_skipn (acceptable o)) with (k := (length acc - h)%nat) in A.
  rewrite Forall_forall in A. exact (A _ E).
Qed.
End W.

Section W2.
Context {F : Type} (o : fops F) {W : Type}.
Notation pst := (@pst F W).

Lemma add_grad_spec t d ps ps' : add_grad o t d ps = Ok ps' ->
  map (@length F) ps' = map (@length F) ps /\
  concat ps' = vaxpy o t (concat ps) (firstn (length (concat ps)) d).
Proof. intros H. apply add_grad_from_spec in H. exact H. Qed.

Lemma dir_eval_restores (clo_ls : list (list F) -> W -> W * (exn + F)) d t (s s' : pst) v :
  dir_eval o clo_ls (p_x s) d t s = (s', inr v) ->
  p_x s' = p_x s /\ p_opt s' = p_opt s /\
  exists y, add_grad o t d (p_x s) = Ok y /\ clo_ls y (p_w s) = (p_w s', inr v).
Proof.
  unfold dir_eval, add_grad_m, mbind at 1 2, get_x at 1. unfold mbind at 1, lift. destruct (add_grad o t d (p_x s)) as [y|e] eqn:E; [|discriminate].
  unfold ret, put_x, mbind, call, set_param_m, get_x. cbn. destruct (clo_ls y (p_w s)) as [w [e|l]] eqn:Ec; [discriminate|].
  unfold mbind, put_x. cbn. intros H. match type of H with (?z, inr ?q) = _ => assert (s' = z) by congruence; assert (v = q) by congruence end. subst s' v. cbn.
  split; [apply set_param_same; eapply add_grad_length; exact E|]. split; [reflexivity|]. exists y. auto.
Qed.
Lemma dir_eval_g_restores (clo_g : list (list F) -> W -> W * (exn + F * list F)) d t (s s' : pst) v :
  dir_eval_g o clo_g (p_x s) d t s = (s', inr v) ->
  p_x s' = p_x s /\ p_opt s' = p_opt s /\
  exists y, add_grad o t d (p_x s) = Ok y /\ clo_g y (p_w s) = (p_w s', inr v).
Proof.
  unfold dir_eval_g, add_grad_m, mbind at 1 2, get_x at 1. unfold mbind at 1, lift. destruct (add_grad o t d (p_x s)) as [y|e] eqn:E; [|discriminate].
  unfold ret, put_x, mbind, call, set_param_m, get_x. cbn. destruct (clo_g y (p_w s)) as [w [e|l]] eqn:Ec; [discriminate|].
  unfold mbind, put_x. cbn. intros H. match type of H with (?z, inr ?q) = _ => assert (s' = z) by congruence; assert (v = q) by congruence end. subst s' v. cbn.
  split; [apply set_param_same; eapply add_grad_length; exact E|]. split; [reflexivity|]. exists y. auto.
Qed.

Variables maxabs sumabs : list F -> F.
Variable clo clo_g : list (list F) -> W -> W * (exn + F * list F).
Variable clo_ls : list (list F) -> W -> W * (exn + F).
Variable wolfe : F -> list F -> F -> list F -> F -> list (F * F * list F) -> F + (F * list F * F * Z).
Variable yastn : bool.
Variable fuel : nat.

Lemma step_exact acc nl ng (s s' : pst) r :
  (1 <= g_hist (o_grp (p_opt s)))%Z -> history o acc (p_opt s) -> g_max_iter (o_grp (p_opt s)) = 1%Z ->
  step_2c o maxabs sumabs clo clo_g clo_ls wolfe yastn fuel nl ng s = (s', inr r) ->
  exists loss fg w, starts clo nl ng s loss fg w /\
   (fle o (maxabs fg) (g_tol_grad (o_grp (p_opt s))) = true /\ p_opt s' = p_opt s /\ p_x s' = p_x s \/
    history o (acc ++ (if (o_niter (p_opt s) =? 0)%Z then [] else accepted o (last_pair o (o_mem (p_opt s)) fg))) (p_opt s') /\
    o_niter (p_opt s') = (o_niter (p_opt s) + 1)%Z /\ m_pg (o_mem (p_opt s')) = Some fg /\
    exists d t, m_d (o_mem (p_opt s')) = Some d /\ m_t (o_mem (p_opt s')) = Some t).
Proof.
  intros H1 H2 H3 H. apply (step1 o maxabs sumabs clo clo_g clo_ls wolfe yastn fuel acc) in H; auto.
  destruct H as (loss & fg & w & St & _ & [(A1 & -> & _)|(_ & A2 & A3 & A4 & _ & d & t & s3 & A5 & A6 & _)]); exists loss, fg, w; (split; [exact St|]).
  - left. auto.
  - right. split; [exact A2|]. split; [exact A3|]. split; [exact A4|]. eauto.
Qed.

Lemma step_moves (tr : W -> list (list (list F))) :
  (forall x w, tr (fst (clo_ls x w)) = tr w ++ [x]) -> (forall x w, tr (fst (clo_g x w)) = tr w ++ [x]) ->
  (forall x w, tr (fst (clo x w)) = tr w ++ [x]) ->
  (forall x w, snd (clo_ls x w) <> inl NoFixedPoint) -> (forall x w, snd (clo_g x w) <> inl NoFixedPoint) ->
  (forall x w, snd (clo x w) <> inl NoFixedPoint) ->
  forall acc nl ng (s s' : pst) r,
  (1 <= g_hist (o_grp (p_opt s)))%Z -> history o acc (p_opt s) -> g_max_iter (o_grp (p_opt s)) = 1%Z ->
  step_2c o maxabs sumabs clo clo_g clo_ls wolfe yastn fuel nl ng s = (s', inr r) ->
  p_x s' = p_x s /\ tr (p_w s') = tr (p_w s) ++ first_eval nl ng s \/
  exists d t pts, m_d (o_mem (p_opt s')) = Some d /\ m_t (o_mem (p_opt s')) = Some t /\
    add_grad o t d (p_x s) = Ok (p_x s') /\
    tr (p_w s') = tr (p_w s) ++ first_eval nl ng s ++ pts /\
    Forall (fun y => exists t', add_grad o t' d (p_x s) = Ok y) pts.
Proof.
  intros T1 T2 T3 N1 N2 N3 acc nl ng s s' r H1 H2 H3 H.
  apply (step1 o maxabs sumabs clo clo_g clo_ls wolfe yastn fuel acc) in H; auto.
  destruct H as (loss & fg & w & St & _ & H).
  assert (Tw : tr w = tr (p_w s) ++ first_eval nl ng s).
  { unfold starts in St. unfold first_eval. destruct nl; [destruct ng|].
    - destruct St as (_ & _ & ->). rewrite app_nil_r. reflexivity.
    - pose proof (T3 (p_x s) (p_w s)) as T. rewrite St in T. exact T.
    - pose proof (T3 (p_x s) (p_w s)) as T. rewrite St in T. exact T. }
  destruct H as [(A1 & -> & _)|(_ & _ & _ & _ & _ & d & t & s3 & A5 & A6 & A7 & A8 & [(B1 & B2 & B3 & _)|(B1 & s4 & lo & B2 & B3 & B4 & B5 & _)])].
  - left. auto.
  - left. rewrite B3. auto.
  - right. exists d, t.
    pose proof (safe_ls o maxabs clo clo_g clo_ls wolfe yastn fuel tr T1 T2 N1 N2 (p_x s) d (tr w) T3 N3
      (o_grp (p_opt s)) true (first_step o sumabs (o_niter (p_opt s) + 1) (g_lr (o_grp (p_opt s))) fg) loss fg (vdot o fg d) s3) as L.
    cbv zeta in B2. rewrite B2 in L. destruct L as (M1 & pts & M2 & M3).
    { split; [exact A7|]. exists []. rewrite A8, app_nil_r. split; [reflexivity|constructor]. }
    exists pts. subst t. split; [exact A5|]. split; [exact A6|]. split; [congruence|]. split; [rewrite B5, M2, Tw, app_assoc; reflexivity|exact M3].
Qed.
End W2.

Lemma step_decreases (F : Type) (o : fops F) (W : Type) (f : list (list F) -> F) maxabs sumabs
  (clo clo_g : list (list F) -> W -> W * (exn + F * list F)) wolfe upd yastn fuel acc nl ng (s s' : @pst F W) r :
  (1 <= g_hist (o_grp (p_opt s)))%Z -> history o acc (p_opt s) -> g_max_iter (o_grp (p_opt s)) = 1%Z ->
  g_ls (o_grp (p_opt s)) = LSbacktracking ->
  step_2c o maxabs sumabs clo clo_g (loss_of f upd) wolfe yastn fuel nl ng s = (s', inr r) ->
  exists loss fg w, starts clo nl ng s loss fg w /\
   (p_x s' = p_x s \/
    (flt o (g_ls_eps (o_grp (p_opt s))) (first_step o sumabs (o_niter (p_opt s) + 1) (g_lr (o_grp (p_opt s))) fg) = true ->
     exists d t, m_d (o_mem (p_opt s')) = Some d /\ m_t (o_mem (p_opt s')) = Some t /\
      snd (fst r) = Some (f (p_x s')) /\
      fle o (f (p_x s')) (fadd o loss (fmul o (fmul o (fq o 1 10000) t) (vdot o fg d))) = true)).
Proof.
  intros H1 H2 H3 H4 H. apply (step1 o maxabs sumabs clo clo_g _ wolfe yastn fuel acc) in H; auto.
  destruct H as (loss & fg & w & St & _ & H). exists loss, fg, w. split; [exact St|].
  destruct H as [(A1 & -> & _)|(_ & _ & _ & _ & _ & d & t & s3 & A5 & A6 & A7 & A8 & [(B1 & B2 & B3 & _)|(B1 & s4 & lo & B2 & B3 & B4 & B5 & B6 & _)])].
  - left. reflexivity.
  - left. exact B2.
  - right. intros Hf. cbv zeta in B2. apply ls_decreases with (x := p_x s) in B2; auto. destruct B2 as (C1 & C2 & C3).
    exists d, t. split; [exact A5|]. split; [exact A6|]. rewrite B4, B6, B3. split; [exact C2|exact C3].
Qed.

Lemma one_iteration_R (W : Type) maxabs sumabs
  (clo clo_g : list (list R) -> W -> W * (exn + R * list R)) clo_ls wolfe yastn fuel nl ng (s : @pst R W) :
  (0 < g_tol_change (o_grp (p_opt s)))%R ->
  (o_niter (p_opt (fst (step_2c Rops maxabs sumabs clo clo_g clo_ls wolfe yastn fuel nl ng s))) <= o_niter (p_opt s) + 1)%Z.
Proof.
  intros H. apply one_iteration. intros x. cbn. unfold Rltb. destruct (Rlt_dec _ _) as [L|L]; [reflexivity|]. exfalso. apply L.
  unfold Rminus. rewrite Rplus_opp_r, Rabs_R0. exact H.
Qed.

(** ** concrete runs *)
Ltac run t k := let v := eval vm_compute in t in k v.

Lemma nofp_drift : exists (s' : @pst Q tworld) r d t y,
  step_2c Qops qmax qsum qclo qclo qclo_nofp qwolfe true 40 None None (qstart LSbacktracking 1 2) = (s', inr r) /\
  m_d (o_mem (p_opt s')) = Some d /\ m_t (o_mem (p_opt s')) = Some t /\
  add_grad Qops t d (p_x (qstart LSbacktracking 1 2)) = Ok y /\ y <> p_x s' /\
  p_x s' = [[83886081 # 117440512]; [-4194303 # 29360128; 83886081 # 58720256]] /\ t = (1 # 117440512)%Q.
Proof.
  run (step_2c Qops qmax qsum qclo qclo qclo_nofp qwolfe true 40 None None (qstart LSbacktracking 1 2)) ltac:(fun v =>
    match v with (?a, inr ?b) => exists a, b end).
  exists [-1 # 1; -4 # 1; -2 # 1], (1 # 117440512)%Q.
  run (add_grad Qops (1 # 117440512)%Q [-1 # 1; -4 # 1; -2 # 1] (p_x (qstart LSbacktracking 1 2))) ltac:(fun v =>
    match v with Ok ?a => exists a end).
  split; [vm_compute; reflexivity|]. split; [reflexivity|]. split; [reflexivity|]. split; [vm_compute; reflexivity|].
  split; [discriminate|]. split; reflexivity.
Qed.

Lemma nofp_wrong_loss : exists (s' : @pst Q tworld) l0 l1 g1,
  step_2c Qops qmax qsum qclo qclo qclo_first qwolfe true 40 None None (qstart LSbacktracking 1 2) = (s', inr (l0, Some l1, g1)) /\
  l1 <> quad false (concat (p_x s')).
Proof.
  run (step_2c Qops qmax qsum qclo qclo qclo_first qwolfe true 40 None None (qstart LSbacktracking 1 2)) ltac:(fun v =>
    match v with (?a, inr (?b, Some ?c, ?d)) => exists a, b, c, d end).
  split; [vm_compute; reflexivity|]. vm_compute. discriminate.
Qed.

Lemma fd_exception : exists (loss_fn : list (list Q) -> unit -> unit * (exn + Q)) (s s' : fst_) e,
  grad_fd Qops loss_fn (1 # 10)%Q (1 # 1)%Q s = (s', inl e) /\ f_x s' <> f_x s.
Proof.
  exists (fun _ w => (w, inl EnvErr)), {| f_x := [[1 # 1]]; f_w := tt |}, {| f_x := [[11 # 10]]; f_w := tt |}, EnvErr.
  split; [vm_compute; reflexivity|]. discriminate.
Qed.

Lemma failed_pair : exists s2 s3 s4 : @pst Q tworld,
  qsteps 2 (qstart LSbacktracking 1 3) = Some s2 /\
  fst (step_2c Qops qmax qsum qclo qclo qclo_env qwolfe true 40 None None s2) = s3 /\
  qsteps 1 s3 = Some s4 /\
  exists st y, m_stps (o_mem (p_opt s4)) = Some (st ++ [y]) /\
    m_stps (o_mem (p_opt s3)) = Some st /\ last st [] = y /\ length st = 2%nat.
Proof.
  run (qsteps 2 (qstart LSbacktracking 1 3)) ltac:(fun v => match v with Some ?a => exists a;
   let w := eval vm_compute in (fst (step_2c Qops qmax qsum qclo qclo qclo_env qwolfe true 40 None None a)) in exists w;
   let u := eval vm_compute in (qsteps 1 w) in match u with Some ?b => exists b;
   let st := eval vm_compute in (m_stps (o_mem (p_opt w))) in match st with Some ?l => 
     split; [vm_compute; reflexivity|]; split; [vm_compute; reflexivity|]; split; [vm_compute; reflexivity|];
     exists l; let y := eval vm_compute in (last l []) in exists y end end end).
  repeat split.
Qed.

Lemma small_step : exists (s s' : @pst Q unit) r,
  g_ls (o_grp (p_opt s)) = LSbacktracking /\
  step_2c Qops qmax qsum steep steep steep_ls qwolfe true 40 None None s = (s', inr r) /\
  steep_f (p_x s) = (50000000 # 1)%Q /\ steep_f (p_x s') = (4050000000 # 1)%Q.
Proof.
  exists steep_start.
  run (step_2c Qops qmax qsum steep steep steep_ls qwolfe true 40 None None steep_start) ltac:(fun v =>
    match v with (?a, inr ?b) => exists a, b end).
  split; [reflexivity|]. split; [vm_compute; reflexivity|]. split; vm_compute; reflexivity.
Qed.

(** ** the direction of every step, over the reals *)
Section Dir.
Context {W : Type}.
Notation pst := (@pst R W).
Open Scope R_scope.

(** [direction] leaves the saved entries other than the lists alone *)
Definition kept (a b : mem R) : Prop := m_d b = m_d a /\ m_t b = m_t a /\ m_H b = m_H a /\ m_pg b = m_pg a.
Definition frame {A} (m : M pst A) : Prop := forall s, kept (o_mem (p_opt s)) (o_mem (p_opt (fst (m s)))).
Lemma frame_ret A (a : A) : frame (ret a). Proof. intros s; repeat split. Qed.
Lemma frame_raise A e : frame (raise (A:=A) e). Proof. intros s; repeat split. Qed.
Lemma frame_lift A (r : res A) : frame (lift r). Proof. destruct r; intros s; repeat split. Qed.
Lemma frame_al m : frame (put_al m). Proof. intros s; repeat split. Qed.
Lemma frame_bind A B (m : M pst A) (k : A -> M pst B) : frame m -> (forall a, frame (k a)) -> frame (mbind m k).
Proof.
  intros Hm Hk s. unfold mbind. specialize (Hm s). destruct (m s) as [s' [e|a]]; cbn in *; auto.
  specialize (Hk a s'). unfold kept in *. cbn in Hk. destruct Hm as (M1 & M2 & M3 & M4). destruct Hk as (K1 & K2 & K3 & K4). repeat split; congruence.
Qed.
Lemma frame_direction sh l fg : frame (direction Rops sh l fg).
Proof.
  intros s. unfold direction, mbind at 1, get_opt at 1. set (a := p_opt s).
  destruct (o_niter a =? 1)%Z; [apply frame_ret|].
  destruct (m_pg l); [|apply frame_raise]. destruct (m_d l); [|apply frame_raise]. destruct (m_t l); [|apply frame_raise].
  destruct (m_dirs l); [|apply frame_raise]. destruct (m_stps l); [|apply frame_raise]. destruct (m_ro l); [|apply frame_raise].
  destruct (m_H l); [|apply frame_raise].
  unfold mbind at 1, lift at 1. destruct (memory_update _ _ _ _ _ _ _ _) as [[[[ds ss] rs] H]|e]; [|apply frame_raise].
  unfold ret at 1. destruct sh.
  - unfold mbind at 1, put_mem, mbind at 1, get_opt at 1, put_opt.
    match goal with |- context [?m {| p_x := p_x s; p_opt := ?q; p_w := p_w s |}] =>
      assert (K : frame m) by (apply frame_bind; [apply frame_al|intros _; apply frame_bind; [apply frame_lift|intros [? ?]; apply frame_bind; [apply frame_al|intros _; apply frame_ret]]]);
      exact (K {| p_x := p_x s; p_opt := q; p_w := p_w s |}) end.
  - unfold mbind at 1, ret at 1.
    match goal with |- context [fst (?m s)] =>
      assert (K : frame m) by (apply frame_bind; [apply frame_al|intros _; apply frame_bind; [apply frame_lift|intros [? ?]; apply frame_bind; [apply frame_al|intros _; apply frame_ret]]]);
      exact (K s) end.
Qed.

Variables maxabs sumabs : list R -> R.
Variable clo clo_g : list (list R) -> W -> W * (exn + R * list R).
Variable clo_ls : list (list R) -> W -> W * (exn + R).
Variable wolfe : R -> list R -> R -> list R -> R -> list (R * R * list R) -> R + (R * list R * R * Z).
Variable yastn : bool.
Variable fuel : nat.
Notation iteration := (iteration Rops maxabs sumabs clo clo_g clo_ls wolfe yastn fuel).

Lemma iteration_fits n k pgs acc ev loss fg nl ng (s : pst) : (1 <= g_hist (o_grp (p_opt s)))%Z ->
  history Rops acc (p_opt s) -> sized n acc ->
  (forall pg, m_pg (o_mem (p_opt s)) = Some pg -> length pg = n) -> (forall d, m_d (o_mem (p_opt s)) = Some d -> length d = n) ->
  (forall H, m_H (o_mem (p_opt s)) = Some H -> 0 < H) -> length fg = n -> fg <> zeros n ->
  match iteration k true pgs (o_mem (p_opt s)) ev loss fg nl ng s with
  | (s', inl e) => fits n (p_opt s')
  | (s', inr i) => exists acc' H d, pre Rops acc' (i_shared i) (i_mem i) (p_opt s') /\ sized n acc' /\
      m_pg (i_mem i) = Some fg /\ m_d (i_mem i) = Some d /\ m_H (i_mem i) = Some H /\ 0 < H /\ length d = n /\
      d = vneg Rops (inv_hessian Rops H (rev (lastn (Z.to_nat (g_hist (o_grp (p_opt s)))) acc')) fg) /\ vdot Rops fg d < 0
  end.
Proof.
  intros Hh Hi Sz Lpg Ld HH Lg Nz. pose proof (history_pre Rops acc (p_opt s) Hh Hi) as P.
  set (a := p_opt s) in *. unfold iteration. unfold mbind at 1, get_opt at 1.
  unfold mbind at 1, put_niter, get_opt at 1, mbind at 1, put_opt at 1.
  fold a. set (s1 := {| p_x := p_x s; p_opt := {| o_grp := o_grp a; o_niter := o_niter a + 1; o_mem := o_mem a; o_al := o_al a |}; p_w := p_w s |}).
  unfold mbind at 1. pose proof (direction_hist Rops acc true (o_mem a) fg s1 a P eq_refl (fun _ _ => I)) as D.
  pose proof (direction_descends n acc true (o_mem a) fg s1) as DD. pose proof (frame_direction true (o_mem a) fg s1) as FR.
  change (o_mem (p_opt s1)) with (o_mem a) in FR.
  destruct (direction Rops true (o_mem a) fg s1) as [s2 [e|[l2 sh2]]].
  { destruct D as (_ & _ & _ & ->). clear DD. split; [exact Lpg|]. split; [exact Ld|]. split; [exact HH|]. exists acc.
    split; [|exact Sz]. destruct Hi as (B0 & B1 & B2 & B3). split; [cbn; lia|]. split; [exact B1|]. split; [|exact B3].
    destruct B2 as [B2|(B2 & B2')]; [left; exact B2|right]. split; [cbn; lia|exact B2']. }
  destruct (DD s2 a l2 sh2 P eq_refl Sz Lg Nz Lpg Ld HH eq_refl) as (H & DH & Hp & Sn & Dd & Dneg). clear DD.
  destruct D as (_ & _ & P2 & Dg & Dn & Dpg & _ & Dmpg & _ & _ & _ & _ & _ & Dsh).
  cbn [fst] in FR. destruct FR as (F1 & _ & F3 & F4).
  set (acc' := acc ++ (if (o_niter a =? 0)%Z then [] else accepted Rops (last_pair Rops (o_mem a) fg))) in *.
  set (d := vneg Rops _) in Dd.
  assert (Lend : length d = n).
  { unfold d, vneg. rewrite map_length. eapply Hop_length; [|exact Lg]. apply Forall_rev. apply Forall_skipn. exact Sn. }
  unfold mbind at 1, get_opt at 1. cbv zeta.
  set (pgs' := match m_pg l2 with Some _ => pgs | None => false end).
  match goal with |- context [mbind (if pgs' then ?m else ret tt) ?k s2] => set (K := k); set (pm := m) end.
  assert (S3 : exists s3, mbind (if pgs' then pm else ret tt) K s2 = K tt s3 /\ pre Rops acc' sh2 l2 (p_opt s3) /\ fits n (p_opt s3)).
  { assert (HF : forall b, o_grp b = o_grp (p_opt s2) -> o_niter b = o_niter (p_opt s2) -> o_al b = o_al (p_opt s2) ->
        same_lists (o_mem b) (o_mem (p_opt s2)) -> m_d (o_mem b) = m_d (o_mem a) -> m_H (o_mem b) = m_H (o_mem a) ->
        (m_pg (o_mem b) = m_pg (o_mem a) \/ m_pg (o_mem b) = Some fg) -> pre Rops acc' sh2 l2 b /\ fits n b).
    { intros b G1 G2 G3 G4 G5 G6 G7. assert (PB : pre Rops acc' sh2 l2 b) by (eapply pre_ext; [exact P2|..]; auto; repeat split).
      split; [exact PB|]. split; [|split; [|split]].
      - intros pg Hpg. destruct G7 as [G7|G7]; rewrite G7 in Hpg; [apply Lpg; exact Hpg|]. assert (pg = fg) by congruence. congruence.
      - rewrite G5. exact Ld.
      - rewrite G6. exact HH.
      - apply pre_history in PB. destruct sh2; [exists acc'|exists []]; (split; [exact PB|]); [exact Sn|constructor]. }
    destruct pgs'.
    - unfold pm, mbind at 1, put_mem, mbind, get_opt, put_opt. eexists. split; [reflexivity|]. apply HF; cbn; auto. repeat split.
    - exists s2. split; [reflexivity|]. apply HF; auto. repeat split. }
  destruct S3 as (s3 & -> & P3 & Ft). subst K. cbv beta zeta.
  assert (Dd' : m_d l2 = Some d) by exact Dd. rewrite Dd'.
  match goal with |- context [if ?b then ret _ else _] => destruct b end.
  { cbn. exists acc', H, d. split; [eapply pre_ext; [exact P3|..]; repeat split|]. repeat split; auto. }
  unfold mbind at 1.
  match goal with |- context [line_search Rops maxabs clo clo_g clo_ls wolfe yastn fuel ?g ?b ?d ?t ?l ?f ?u s3] =>
    pose proof (keeps_ls Rops maxabs clo clo_g clo_ls wolfe yastn fuel g b d t l f u s3) as KL;
    destruct (line_search Rops maxabs clo clo_g clo_ls wolfe yastn fuel g b d t l f u s3) as [s4 [e|r]] end; cbn [fst] in KL.
  - rewrite KL. exact Ft.
  - unfold ret. cbn [i_shared i_mem m_pg m_d m_H]. rewrite KL. exists acc', H, d. split; [eapply pre_ext; [exact P3|..]; repeat split|].
    repeat split; auto.
Qed.

Lemma step_direction n nl ng (s s' : pst) r :
  (1 <= g_hist (o_grp (p_opt s)))%Z -> g_max_iter (o_grp (p_opt s)) = 1%Z ->
  maxabs (zeros n) <= g_tol_grad (o_grp (p_opt s)) ->
  (forall x w w' loss g, clo x w = (w', inr (loss, g)) -> length g = n) -> (forall g, ng = Some g -> length g = n) ->
  fits n (p_opt s) -> step_2c Rops maxabs sumabs clo clo_g clo_ls wolfe yastn fuel nl ng s = (s', r) ->
  o_grp (p_opt s') = o_grp (p_opt s) /\ fits n (p_opt s') /\
  forall x, r = inr x -> exists loss fg w, starts clo nl ng s loss fg w /\
    (maxabs fg <= g_tol_grad (o_grp (p_opt s)) \/
     exists d H acc, m_d (o_mem (p_opt s')) = Some d /\ m_H (o_mem (p_opt s')) = Some H /\ history Rops acc (p_opt s') /\
       d = vneg Rops (inv_hessian Rops H (rev (lastn (Z.to_nat (g_hist (o_grp (p_opt s)))) acc)) fg) /\
       vdot Rops fg d < 0).
Proof.
  intros Hh Hm Hz Lc Ln Ft E.
  assert (G : o_grp (p_opt s') = o_grp (p_opt s)).
  { destruct Ft as (_ & _ & _ & acc & Hi & _).
    pose proof (step_hist Rops maxabs sumabs clo clo_g clo_ls wolfe yastn fuel acc nl ng s Hh Hi) as [G _]. rewrite E in G. exact G. }
  split; [exact G|]. revert E. unfold step_2c. unfold mbind at 1.
  match goal with |- context [let (_, _) := ?m s in _] => destruct (m s) as [s1 [e|[[loss fg] ev]]] eqn:Em end.
  { assert (O1 : p_opt s1 = p_opt s).
    { revert Em. destruct nl; [destruct ng|]; [discriminate| |]; unfold mbind, call; destruct (clo _ _) as [w [e'|[p q]]]; unfold ret; cbn; intros E'; try discriminate;
      match type of E' with (?z, _) = _ => assert (s1 = z) by congruence end; subst s1; reflexivity. }
    intros E. assert (s' = s1) by congruence. subst s'. rewrite O1. split; [exact Ft|]. intros x Hx. congruence. }
  assert (S1 : starts clo nl ng s loss fg (p_w s1) /\ p_opt s1 = p_opt s /\ length fg = n).
  { unfold starts. revert Em. destruct nl; [destruct ng|].
    - unfold ret. intros E. assert (s1 = s) by congruence. subst. split; [|split; [reflexivity|]]. { repeat split; congruence. } apply Ln. congruence.
    - unfold mbind, call. destruct (clo _ _) as [w [e|[p q]]] eqn:Ec; [discriminate|]. unfold ret. cbn. intros E.
      match type of E with (?z, _) = _ => assert (s1 = z) by congruence end. subst s1. cbn. split; [congruence|]. split; [reflexivity|].
      apply Lc in Ec. congruence.
    - unfold mbind, call. destruct (clo _ _) as [w [e|[p q]]] eqn:Ec; [discriminate|]. unfold ret. cbn. intros E.
      match type of E with (?z, _) = _ => assert (s1 = z) by congruence end. subst s1. cbn. split; [congruence|]. split; [reflexivity|].
      apply Lc in Ec. congruence. }
  destruct S1 as (St & O1 & Lg). unfold mbind at 1, get_opt at 1. rewrite O1, Hm.
  destruct (fle Rops (maxabs fg) (g_tol_grad (o_grp (p_opt s)))) eqn:Ef.
  { unfold ret. intros E. assert (s' = s1) by congruence. subst s'. rewrite O1. split; [exact Ft|]. intros x _. exists loss, fg, (p_w s1).
    split; [exact St|]. left. cbn in Ef. unfold Rleb in Ef. destruct (Rle_dec _ _); [assumption|discriminate]. }
  assert (Nz : fg <> zeros n).
  { intros ->. cbn in Ef. unfold Rleb in Ef. destruct (Rle_dec _ _); [discriminate|]. contradiction. }
  unfold mbind at 1. change (Z.to_nat 1) with 1%nat. cbn [Lbfgs.iterations].
  unfold mbind at 1.
  destruct Ft as (Lpg & Ld & HH & acc & Hi & Sz).
  rewrite <- O1 in *.
  match goal with |- context [Lbfgs.iteration Rops maxabs sumabs clo clo_g clo_ls wolfe yastn fuel ?a0 ?a1 ?a2 ?a3 ?a4 ?a5 ?a6 ?a7 ?a8 s1] =>
    pose proof (iteration_fits n a0 a2 acc a4 a5 a6 a7 a8 s1 Hh Hi Sz Lpg Ld HH Lg Nz) as I1;
    destruct (Lbfgs.iteration Rops maxabs sumabs clo clo_g clo_ls wolfe yastn fuel a0 a1 a2 a3 a4 a5 a6 a7 a8 s1) as [s2 [e|i]] end.
  { intros E. assert (s' = s2) by congruence. subst s'. split; [exact I1|]. intros x Hx. congruence. }
  match goal with |- context [if i_break i then ?A else ?B] => replace (if i_break i then A else B) with A by (destruct (i_break i); reflexivity) end.
  destruct I1 as (acc' & H & d & P & Sn & Ipg & Id & IH & Hp & Len & Ed & Dn).
  unfold ret, put_mem, mbind, get_opt, put_opt. intros E.
  match type of E with (?z, inr ?q) = _ => assert (s' = z) by congruence end. subst s'. cbn [p_x p_opt p_w o_mem o_niter] in *.
  assert (HI : history Rops acc' (with_mem (i_mem i) (p_opt s2))).
  { assert (FN : pre Rops acc' true (i_mem i) (with_mem (i_mem i) (p_opt s2))).
    { destruct P as (P1 & P2 & P3 & P4 & P5). split; [exact P1|]. split; [exact P2|]. split; [exact P3|]. split; [exact P4|].
      split; [repeat split|]. intros Hn. cbn in Hn. destruct (i_shared i); [apply P5; exact Hn|lia]. }
    apply pre_history in FN. exact FN. }
  split.
  - split; [|split; [|split]]; cbn [o_mem].
    + intros pg Hpg. assert (pg = fg) by congruence. congruence.
    + intros d' Hd. assert (d' = d) by congruence. congruence.
    + intros H' HH'. assert (H' = H) by congruence. subst. exact Hp.
    + exists acc'. split; [exact HI|exact Sn].
  - intros x _. exists loss, fg, (p_w s1). split; [exact St|]. right. exists d, H, acc'. repeat split; auto; apply HI.
Qed.
End Dir.
