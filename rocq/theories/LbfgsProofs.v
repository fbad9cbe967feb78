From Verif Require Import Base BaseLemmas Flt Armijo Lbfgs LbfgsSpec.
Open Scope list_scope.

(** ** lists *)
Lemma lastn_all {A} n (l : list A) : (length l <= n)%nat -> lastn n l = l.
Proof. intros H. unfold lastn. replace (length l - n)%nat with 0%nat by lia. reflexivity. Qed.
Lemma lastn_length {A} n (l : list A) : length (lastn n l) = Nat.min n (length l).
Proof. unfold lastn. rewrite skipn_length. lia. Qed.
Lemma lastn_snoc {A} n (l : list A) x : (n <= length l)%nat -> (1 <= n)%nat ->
  exists y t, lastn n l = y :: t /\ lastn n (l ++ [x]) = t ++ [x].
Proof.
  intros H1 H2. unfold lastn. rewrite app_length. cbn.
  replace (length l + 1 - n)%nat with (S (length l - n)) by lia.
  destruct (skipn (length l - n) l) as [|y t] eqn:E.
  { apply (f_equal (@length _)) in E. rewrite skipn_length in E. cbn in E. lia. }
  exists y, t. split; [reflexivity|].
  rewrite skipn_app. replace (S (length l - n) - length l)%nat with 0%nat by lia.
  assert (G : forall (l : list A) a, skipn (S a) l = tl (skipn a l)).
  { clear. induction l as [|x l IHl]; intros [|a0]; try reflexivity. exact (IHl a0). }
  rewrite (G l), E. reflexivity.
Qed.

Lemma getitem_ok {A} (l : list A) i : (i < length l)%nat -> exists a, getitem l i = Ok a /\ nth_error l i = Some a.
Proof.
  intros H. unfold getitem. destruct (nth_error l i) eqn:E; eauto. apply nth_error_None in E. lia.
Qed.
Lemma setitem_ok {A} (l : list A) i a : (i < length l)%nat -> exists l', setitem l i a = Ok l' /\ length l' = length l /\
  nth_error l' i = Some a /\ (forall j, j <> i -> nth_error l' j = nth_error l j).
Proof.
  revert i. induction l as [|x l IH]; intros [|i] H; cbn in *; try lia.
  - eexists. split; [reflexivity|]. repeat split. intros [|j] Hj; [congruence|reflexivity].
  - destruct (IH i) as (l' & -> & L & E & O); [lia|]. cbn. eexists. split; [reflexivity|]. cbn. repeat split; auto.
    intros [|j] Hj; [reflexivity|]. cbn. apply O. congruence.
Qed.

Section Pure.
Context {F : Type} (o : fops F).

Lemma memory_update_spec h acc H y s : (1 <= h)%nat ->
  let rho := fun p => fdiv o (fq o 1 1) (vdot o (fst p) (snd p)) in
  let acc' := acc ++ (if flt o (fq o 1 10000000000) (vdot o y s) then [(y, s)] else []) in
  memory_update o (Z.of_nat h) (map fst (lastn h acc)) (map snd (lastn h acc)) (map rho (lastn h acc)) H y s =
  Ok (map fst (lastn h acc'), map snd (lastn h acc'), map rho (lastn h acc'),
      if flt o (fq o 1 10000000000) (vdot o y s) then fdiv o (vdot o y s) (vdot o y y) else H).
Proof.
  intros Hh rho acc'. unfold memory_update. destruct (flt o _ (vdot o y s)) eqn:E; unfold acc'.
  2:{ rewrite app_nil_r. reflexivity. }
  rewrite map_length, lastn_length.
  destruct (Z.eqb_spec (Z.of_nat (Nat.min h (length acc))) (Z.of_nat h)) as [Hl|Hl].
  - destruct (lastn_snoc h acc (y, s)) as (p & t & E1 & E2); [lia|lia|]. rewrite E1, E2. cbn. rewrite !map_app. reflexivity.
  - rewrite !lastn_all by (rewrite ?app_length; cbn; lia). rewrite !map_app. reflexivity.
Qed.

Lemma back_loop_ok dirs stps ro : length stps = length dirs -> length ro = length dirs ->
  forall n al q, (n <= length dirs)%nat -> (n <= length al)%nat ->
  exists al' q', back_loop o dirs stps ro n al q = Ok (al', q') /\ length al' = length al /\
    (forall i, (i < n)%nat -> exists a, nth_error al' i = Some (Some a)) /\
    (forall i, (n <= i)%nat -> nth_error al' i = nth_error al i).
Proof.
  intros L1 L2. induction n; intros al q H1 H2; cbn.
  - exists al, q. repeat split; auto. intros; lia.
  - destruct (getitem_ok stps n) as (s & -> & _); [lia|]. cbn. destruct (getitem_ok ro n) as (r & -> & _); [lia|]. cbn.
    destruct (setitem_ok al n (Some (fmul o (vdot o s q) r))) as (al1 & -> & La & Ea & Oa); [lia|]. cbn.
    destruct (getitem_ok dirs n) as (y & -> & _); [lia|]. cbn.
    destruct (IHn al1 (vaxpy o (fneg o (fmul o (vdot o s q) r)) q y)) as (al' & q' & -> & Lb & A & B); [lia|lia|].
    exists al', q'. split; [reflexivity|]. split; [lia|]. split.
    + intros i Hi. destruct (Nat.eq_dec i n) as [->|Hn]; [|apply A; lia]. rewrite B by lia. eauto.
    + intros i Hi. rewrite B by lia. apply Oa. lia.
Qed.

Lemma forw_loop_ok dirs stps ro al : length stps = length dirs -> length ro = length dirs ->
  (forall i, (i < length dirs)%nat -> exists a, nth_error al i = Some (Some a)) ->
  forall n i0 r, (i0 + n <= length dirs)%nat -> exists r', forw_loop o dirs stps ro al n i0 r = Ok r'.
Proof.
  intros L1 L2 A. induction n; intros i0 r Hn; cbn; [eauto|].
  destruct (getitem_ok dirs i0) as (y & -> & _); [lia|]. cbn. destruct (getitem_ok ro i0) as (c & -> & _); [lia|]. cbn.
  destruct (getitem_ok stps i0) as (s & -> & _); [lia|]. cbn.
  destruct (A i0) as [a E]; [lia|]. unfold getitem. rewrite E. cbn. apply IHn. lia.
Qed.

Lemma two_loop_ok dirs stps ro H al g : length stps = length dirs -> length ro = length dirs ->
  (length dirs <= length al)%nat ->
  exists d al', two_loop o dirs stps ro H al g = Ok (d, al') /\ length al' = length al.
Proof.
  intros L1 L2 L3. unfold two_loop.
  destruct (back_loop_ok dirs stps ro L1 L2 (length dirs) al (vneg o g)) as (al' & q & -> & La & A & _); [lia|lia|]. cbn.
  destruct (forw_loop_ok dirs stps ro al' L1 L2 A (length dirs) 0 (vscale o H q)) as (r & ->); [lia|]. cbn. eauto.
Qed.
End Pure.

(** ** frame: the line search does not touch the optimizer state *)
Section Frame.
Context {F : Type} (o : fops F) {St : Type}.

Lemma armijo_pres (R : St -> St -> Prop) (phi : F -> M St F) yastn p0 der am :
  (forall s, R s s) -> (forall a b c, R a b -> R b c -> R a c) -> (forall a s, R s (fst (phi a s))) ->
  forall fuel a s, R s (fst (armijo o phi yastn p0 der am fuel a s)).
Proof.
  intros Rr Rt Rp.
  assert (E : forall (A : Type) alpha (h : M St A) k s,
    (forall s', R s' (fst (h s'))) -> (forall v s', R s' (fst (k v s'))) -> R s (fst (eval_phi phi yastn alpha h k s))).
  { intros A alpha h k s Hh Hk. unfold eval_phi. pose proof (Rp alpha s) as P. destruct (phi alpha s) as [s' [e|v]]; cbn in P.
    - destruct yastn; [destruct e|]; cbn; auto. eapply Rt; [exact P|]. apply Hh.
    - eapply Rt; [exact P|]. apply Hk. }
  assert (L : forall fuel a0 q0 a1 q1 s, R s (fst (armijo_loop o phi yastn p0 der am fuel a0 q0 a1 q1 s))).
  { induction fuel; intros; cbn [armijo_loop]; [apply Rr|]. destruct (flt o am a1); [|apply Rr].
    cbv zeta. apply E; [intros; apply Rr|]. intros v s'. destruct (sufficient _ _ _ _ _); [apply Rr|]. apply IHfuel. }
  intros. unfold armijo. apply E; [intros; apply Rr|]. intros v s'. destruct (sufficient _ _ _ _ _); [apply Rr|].
  cbv zeta. apply E; [intros; apply Rr|]. intros v2 s2. destruct (sufficient _ _ _ _ _); [apply Rr|]. apply L.
Qed.
End Frame.

Section Step.
Context {F : Type} (o : fops F) {W : Type}.
Variables maxabs sumabs : list F -> F.
Variable clo clo_g : list (list F) -> W -> W * (exn + F * list F).
Variable clo_ls : list (list F) -> W -> W * (exn + F).
Variable wolfe : F -> list F -> F -> list F -> F -> list (F * F * list F) -> F + (F * list F * F * Z).
Variable yastn : bool.
Variable fuel : nat.
Notation pst := (@pst F W).
Notation line_search := (line_search o maxabs clo clo_g clo_ls wolfe yastn fuel).
Notation iteration := (iteration o maxabs sumabs clo clo_g clo_ls wolfe yastn fuel).
Notation iterations := (iterations o maxabs sumabs clo clo_g clo_ls wolfe yastn fuel).
Notation step_2c := (step_2c o maxabs sumabs clo clo_g clo_ls wolfe yastn fuel).

Definition keeps {A} (m : M pst A) : Prop := forall s, p_opt (fst (m s)) = p_opt s.

Lemma keeps_ret A (a : A) : keeps (ret a). Proof. intros s; reflexivity. Qed.
Lemma keeps_raise A e : keeps (raise (A:=A) e). Proof. intros s; reflexivity. Qed.
Lemma keeps_bind A B (m : M pst A) (k : A -> M pst B) : keeps m -> (forall a, keeps (k a)) -> keeps (mbind m k).
Proof.
  intros Hm Hk s. unfold mbind. specialize (Hm s). destruct (m s) as [s' [e|a]]; cbn in *; auto. rewrite Hk. exact Hm.
Qed.
Lemma keeps_call A (c : list (list F) -> W -> W * (exn + A)) : keeps (call c).
Proof. intros s. unfold call. destruct (c _ _). reflexivity. Qed.
Lemma keeps_get_x : keeps get_x. Proof. intros s; reflexivity. Qed.
Lemma keeps_get_opt : keeps get_opt. Proof. intros s; reflexivity. Qed.
Lemma keeps_put_x x : keeps (put_x x). Proof. intros s; reflexivity. Qed.
Lemma keeps_lift A (r : res A) : keeps (lift r). Proof. destruct r; intros s; reflexivity. Qed.
Hint Resolve keeps_ret keeps_raise keeps_bind keeps_call keeps_get_x keeps_get_opt keeps_put_x keeps_lift : keeps.
Lemma keeps_add t d : keeps (add_grad_m o t d).
Proof. unfold add_grad_m. auto with keeps. Qed.
Lemma keeps_set x : keeps (set_param_m x).
Proof. unfold set_param_m. auto with keeps. Qed.
Hint Resolve keeps_add keeps_set : keeps.
Lemma keeps_dir x d t : keeps (dir_eval o clo_ls x d t).
Proof. unfold dir_eval. auto 8 with keeps. Qed.
Lemma keeps_dir_g x d t : keeps (dir_eval_g o clo_g x d t).
Proof. unfold dir_eval_g. auto 8 with keeps. Qed.
Hint Resolve keeps_dir keeps_dir_g : keeps.
Lemma keeps_armijo y x d loss gtd t : keeps (armijo o (dir_eval o clo_ls x d) y loss gtd (amin o) fuel t).
Proof.
  intros s. symmetry. apply (armijo_pres o (fun s s' => p_opt s = p_opt s')); try congruence.
  intros a s0. symmetry. apply keeps_dir.
Qed.
Hint Resolve keeps_armijo : keeps.
Lemma keeps_bt y hv n x d eps loss gtd : forall t nl, keeps (bt_loop o clo_ls y fuel hv n x d eps loss gtd t nl).
Proof.
  induction n; intros; cbn [bt_loop]; auto with keeps. destruct (flt o eps t); auto with keeps.
  apply keeps_bind; auto with keeps. intros r. destruct (ls_stat r); auto with keeps. destruct (ls_alpha r); auto with keeps.
Qed.
Hint Resolve keeps_bt : keeps.
Lemma keeps_need p : keeps (need_t p). Proof. unfold need_t. destruct (fst p); auto with keeps. Qed.
Hint Resolve keeps_need : keeps.
Lemma keeps_wolfe n x d t loss g gtd : forall seen, keeps (wolfe_loop o clo_g wolfe n x d t loss g gtd seen).
Proof.
  induction n; intros; cbn [wolfe_loop]; auto with keeps. destruct (wolfe _ _ _ _ _ _); auto with keeps.
Qed.
Hint Resolve keeps_wolfe : keeps.
Lemma keeps_ls g last d t loss fg gtd : keeps (line_search g last d t loss fg gtd).
Proof.
  unfold line_search. destruct (g_ls g).
  - apply keeps_bind; auto with keeps. intros u. destruct last; auto with keeps.
  - apply keeps_bind; auto with keeps. intros u. destruct last; auto with keeps.
  - auto 8 with keeps.
  - apply keeps_bind; auto with keeps. intros x. apply keeps_bind; [|auto with keeps].
    intros s. pose proof (keeps_wolfe fuel x d t loss fg gtd [] s) as K.
    destruct (wolfe_loop _ _ _ _ _ _ _ _ _ _ _ s) as [s' [e|[[[nl ng] t'] ev]]]; cbn in K; auto.
    destruct yastn; auto. destruct e; auto. rewrite <- K.
    match goal with |- p_opt (fst (?m s')) = _ => assert (Km : keeps m) end; [|apply Km].
    apply keeps_bind; [auto with keeps|]. intros []. apply keeps_bind; [auto with keeps|]. intros p.
    apply keeps_bind; [auto with keeps|]. intros tl. auto with keeps.
  - auto with keeps.
Qed.

(** ** history *)
Notation H1 := (list F * list F)%type.
Definition hsz (a : opt F) : nat := Z.to_nat (g_hist (o_grp a)).
Definition al_ok (a : opt F) : Prop := match o_al a with Some al => length al = hsz a | None => True end.

(** local lists [l] holding the newest of acc, or none at all *)
Definition lists_ok (h : nat) (acc : list H1) (m : mem F) : Prop :=
  Forall (acceptable o) acc /\ (acc = [] /\ no_lists m \/ holds_newest o h acc m).

Definition same_lists (m l : mem F) : Prop := m_dirs m = m_dirs l /\ m_stps m = m_stps l /\ m_ro m = m_ro l.

(** what holds before every iteration *)
Definition pre (acc : list H1) (shared : bool) (l : mem F) (a : opt F) : Prop :=
  (1 <= g_hist (o_grp a))%Z /\ (0 <= o_niter a)%Z /\ al_ok a /\ lists_ok (hsz a) acc l /\
  (if shared then same_lists (o_mem a) l /\ (o_niter a = 0%Z -> acc = [] /\ no_lists l)
   else no_lists (o_mem a) /\ (1 <= o_niter a)%Z).

Lemma pre_history acc shared l a : pre acc shared l a ->
  if shared then history o acc a else history o [] a.
Proof.
  intros (P1 & P2 & P3 & (P4 & P5) & P6). destruct shared.
  - destruct P6 as ((S1 & S2 & S3) & P7). split; [exact P2|]. split; [exact P4|]. split; [|exact P3].
    destruct (Z.eq_dec (o_niter a) 0) as [Hn|Hn].
    + left. destruct (P7 Hn) as (-> & N1 & N2 & N3). split; [reflexivity|]. unfold no_lists. rewrite S1, S2, S3. auto.
    + destruct P5 as [(-> & N1 & N2 & N3)|(N1 & N2 & N3)].
      * left. split; [reflexivity|]. unfold no_lists. rewrite S1, S2, S3. auto.
      * right. split; [exact Hn|]. unfold holds_newest. rewrite S1, S2, S3. auto.
  - destruct P6 as [N _]. split; [exact P2|]. split; [constructor|]. split; [left; auto|exact P3].
Qed.

Notation new_pairs l fg := (accepted o (last_pair o l fg)).

Definition bump (a : opt F) : opt F := {| o_grp := o_grp a; o_niter := o_niter a + 1; o_mem := o_mem a; o_al := o_al a |}.

(** [direction] after the counter has been increased *)
Lemma direction_hist acc shared l fg (s : pst) a : pre acc shared l a -> p_opt s = bump a ->
  (m_pg l = None -> o_niter a <> 0%Z -> True) ->
  match direction o shared l fg s with
  | (s', inl e) => p_x s' = p_x s /\ o_grp (p_opt s') = o_grp a /\ (exists new, history o ((if shared then acc else []) ++ new) (p_opt s')) /\ p_opt s' = bump a
  | (s', inr (l', sh')) => p_x s' = p_x s /\ p_w s' = p_w s /\
      pre (acc ++ (if (o_niter a =? 0)%Z then [] else new_pairs l fg)) sh' l' (p_opt s') /\ o_grp (p_opt s') = o_grp a /\
      o_niter (p_opt s') = (o_niter a + 1)%Z /\ m_pg l' = m_pg l /\ m_pl l' = m_pl l /\
      m_pg (o_mem (p_opt s')) = m_pg (o_mem a) /\ (exists d, m_d l' = Some d) /\ (exists H, m_H l' = Some H) /\
      (exists L, m_dirs l' = Some L) /\ (exists L, m_stps l' = Some L) /\ (exists L, m_ro l' = Some L) /\
      (sh' = false -> shared = false \/ o_niter a = 0%Z)
  end.
Proof.
  intros P Es _. pose proof (pre_history _ _ _ _ P) as PH. destruct P as (P1 & P2 & P3 & (P4 & P5) & P6).
  unfold direction, mbind, get_opt. rewrite Es. cbn [bump o_niter].
  destruct (Z.eqb_spec (o_niter a + 1) 1) as [Hn|Hn].
  - (* first iteration *)
    cbn. assert (Hn0 : o_niter a = 0%Z) by lia. destruct shared; [|lia]. destruct P6 as (S & P7).
    destruct (P7 Hn0) as (-> & NL). rewrite Hn0. cbn. rewrite Es. cbn. rewrite Hn0.
    assert (NLa : no_lists (o_mem a)) by (unfold no_lists in *; destruct S as (-> & -> & ->); auto).
    repeat split; cbn; eauto; try lia; try (constructor; fail); try apply NLa; auto.
    right. repeat split.
  - assert (Hn0 : o_niter a <> 0%Z) by lia. replace (o_niter a =? 0)%Z with false by (symmetry; apply Z.eqb_neq; exact Hn0).
    assert (HB : forall acc', history o acc' a -> history o acc' (bump a)).
    { intros acc' (B0 & B1 & B2 & B3). split; [cbn; lia|]. split; [exact B1|]. split; [|exact B3].
      destruct B2 as [B2|(B2 & B2')]; [left; exact B2|right]. split; [cbn; lia|exact B2']. }
    assert (EXN : exists new, history o ((if shared then acc else []) ++ new) (bump a)).
    { exists []. rewrite app_nil_r. apply HB. destruct shared; exact PH. }
    destruct (m_pg l) as [pg|] eqn:Epg; [|cbn; rewrite Es; cbn; auto].
    destruct (m_d l) as [d|] eqn:Ed; [|cbn; rewrite Es; cbn; auto].
    destruct (m_t l) as [t|] eqn:Et; [|cbn; rewrite Es; cbn; auto].
    destruct (m_dirs l) as [dirs|] eqn:Edi; [|cbn; rewrite Es; cbn; auto].
    destruct (m_stps l) as [stps|] eqn:Est; [|cbn; rewrite Es; cbn; auto].
    destruct (m_ro l) as [ro|] eqn:Ero; [|cbn; rewrite Es; cbn; auto].
    destruct (m_H l) as [H|] eqn:EH; [|cbn; rewrite Es; cbn; auto].
    destruct P5 as [(_ & N & _)|(L1 & L2 & L3)]; [congruence|].
    assert (dirs = map fst (lastn (hsz a) acc)) by congruence. subst dirs.
    assert (stps = map snd (lastn (hsz a) acc)) by congruence. subst stps.
    assert (ro = map (fun p => fdiv o (fq o 1 1) (vdot o (fst p) (snd p))) (lastn (hsz a) acc)) by congruence. subst ro.
    cbn [bump o_grp o_mem o_al].
    set (y := vsub o fg pg). set (sv := vscale o t d).
    pose proof (memory_update_spec o (hsz a) acc H y sv ltac:(unfold hsz; lia)) as MU. cbv zeta in MU.
    replace (Z.of_nat (hsz a)) with (g_hist (o_grp a)) in MU by (unfold hsz; lia).
    cbv beta iota zeta. rewrite MU. clear MU.
    assert (NP : new_pairs l fg = if flt o (fq o 1 10000000000) (vdot o y sv) then [(y, sv)] else []).
    { unfold last_pair. rewrite Epg, Ed, Et. reflexivity. }
    rewrite NP. clear NP.
    set (acc' := acc ++ (if flt o (fq o 1 10000000000) (vdot o y sv) then [(y, sv)] else [])).
    assert (FA : Forall (acceptable o) acc').
    { unfold acc'. apply Forall_app. split; [exact P4|]. destruct (flt o _ (vdot o y sv)) eqn:E; constructor; auto. }
    set (ds := map fst (lastn (hsz a) acc')). set (ss := map snd (lastn (hsz a) acc')).
    set (rs := map _ (lastn (hsz a) acc')). set (H' := if flt o _ (vdot o y sv) then _ else H).
    set (al := match o_al a with Some al => al | None => repeat None (Z.to_nat (g_hist (o_grp a))) end).
    assert (La : length al = hsz a).
    { unfold al, al_ok, hsz in *. destruct (o_al a); [exact P3|]. apply repeat_length. }
    destruct (two_loop_ok o ds ss rs H' al fg) as (r & al' & E2 & Lal).
    { unfold ds, ss. rewrite !map_length. reflexivity. }
    { unfold ds, rs. rewrite !map_length. reflexivity. }
    { unfold ds. rewrite map_length, lastn_length, La. lia. }
    cbn [lift ret]. destruct shared.
    + unfold put_mem, put_al, mbind, get_opt, put_opt, ret. cbn. rewrite E2. cbn. rewrite Es. cbn.
      destruct P6 as (S & P7).
      repeat split; cbn; eauto; try lia; try congruence; try (exfalso; cbn in *; lia).
      * unfold al_ok. cbn. unfold hsz. cbn. fold (hsz a). congruence.
      * right. repeat split; cbn; fold (hsz a); reflexivity.
    + unfold put_mem, put_al, mbind, get_opt, put_opt, ret. cbn. rewrite E2. cbn. rewrite Es. cbn.
      destruct P6 as (NL & P7).
      repeat split; cbn; eauto; try lia; try congruence; try apply NL.
      * unfold al_ok. cbn. unfold hsz. cbn. fold (hsz a). congruence.
      * right. repeat split; cbn; fold (hsz a); reflexivity.
Qed.

Lemma pre_ext acc sh l a l' a' : pre acc sh l a -> o_grp a' = o_grp a -> o_niter a' = o_niter a -> o_al a' = o_al a ->
  same_lists (o_mem a') (o_mem a) -> same_lists l' l -> pre acc sh l' a'.
Proof.
  intros (P1 & P2 & P3 & (P4 & P5) & P6) E1 E2 E3 (S1 & S2 & S3) (T1 & T2 & T3).
  unfold pre, al_ok, lists_ok, hsz, no_lists, holds_newest, same_lists in *.
  rewrite E1, E2, E3, S1, S2, S3, T1, T2, T3.
  exact (conj P1 (conj P2 (conj P3 (conj (conj P4 P5) P6)))).
Qed.

Definition base (shared : bool) (acc : list H1) : list H1 := if shared then acc else [].

Lemma pre_base acc shared a0 l0 acc1 sh' l' a : pre acc shared l0 a0 -> pre (acc ++ acc1) sh' l' a ->
  (sh' = false -> shared = false \/ o_niter a0 = 0%Z) ->
  exists new, history o (base shared acc ++ new) a.
Proof.
  intros P0 P Hs. pose proof (pre_history _ _ _ _ P) as PH. destruct sh'.
  - destruct shared; cbn; [exists acc1; exact PH|exists (acc ++ acc1); exact PH].
  - exists []. rewrite app_nil_r. destruct shared; cbn; [|exact PH].
    destruct Hs as [Hs|Hs]; [reflexivity|discriminate|].
    destruct P0 as (_ & _ & _ & _ & _ & P7). destruct (P7 Hs) as [-> _]. exact PH.
Qed.

Lemma iteration_hist acc n shared pgs l ev loss fg nl ng (s : pst) : pre acc shared l (p_opt s) ->
  match iteration n shared pgs l ev loss fg nl ng s with
  | (s', inl e) => o_grp (p_opt s') = o_grp (p_opt s) /\ exists new, history o (base shared acc ++ new) (p_opt s')
  | (s', inr i) => o_grp (p_opt s') = o_grp (p_opt s) /\ o_niter (p_opt s') = (o_niter (p_opt s) + 1)%Z /\ pre (acc ++ (if (o_niter (p_opt s) =? 0)%Z then [] else new_pairs l fg)) (i_shared i) (i_mem i) (p_opt s') /\ (i_shared i = false -> shared = false \/ o_niter (p_opt s) = 0%Z) /\ (exists L, m_dirs (i_mem i) = Some L)
  end.
Proof.
  intros P. set (a := p_opt s) in *. unfold iteration. unfold mbind at 1, get_opt at 1.
  unfold mbind at 1, put_niter, get_opt at 1, mbind at 1, put_opt at 1.
  fold a. set (s1 := {| p_x := p_x s; p_opt := {| o_grp := o_grp a; o_niter := o_niter a + 1; o_mem := o_mem a; o_al := o_al a |}; p_w := p_w s |}).
  unfold mbind at 1. pose proof (direction_hist acc shared l fg s1 a P eq_refl (fun _ _ => I)) as D.
  destruct (direction o shared l fg s1) as [s2 [e|[l2 sh2]]].
  { destruct D as (_ & D1 & D2 & _). split; [exact D1|exact D2]. }
  destruct D as (Dx & Dw & P2 & Dg & Dn & Dpg & Dpl & Dmpg & (d & Dd) & (H & DH) & (L1 & DL1) & (L2 & DL2) & (L3 & DL3) & Dsh).
  unfold mbind at 1, get_opt at 1. cbv zeta.
  set (pgs' := match m_pg l2 with Some _ => pgs | None => false end).
  match goal with |- context [mbind (if pgs' then ?m else ret tt) ?k s2] => set (K := k); set (pm := m) end.
  assert (S3 : exists s3, mbind (if pgs' then pm else ret tt) K s2 = K tt s3 /\ o_grp (p_opt s3) = o_grp a /\ o_niter (p_opt s3) = (o_niter a + 1)%Z /\ pre (acc ++ (if (o_niter a =? 0)%Z then [] else new_pairs l fg)) sh2 l2 (p_opt s3)).
  { destruct pgs'.
    - unfold pm, mbind at 1, put_mem, mbind, get_opt, put_opt. eexists. split; [reflexivity|]. cbn. split; [exact Dg|]. split; [exact Dn|].
      eapply pre_ext; [exact P2|..]; repeat split.
    - exists s2. auto. }
  destruct S3 as (s3 & -> & G3 & N3 & P3). subst K. cbv beta zeta.
  match goal with |- context [flt o (fneg o ?x) ?y] => destruct (flt o (fneg o x) y) end.
  { unfold ret. split; [exact G3|]. split; [exact N3|]. split; [|split; [exact Dsh|cbn; eauto]].
    eapply pre_ext; [exact P3|..]; repeat split. }
  unfold mbind.
  match goal with |- context [Lbfgs.line_search o maxabs clo clo_g clo_ls wolfe yastn fuel ?a1 ?a2 ?a3 ?a4 ?a5 ?a6 ?a7 s3] =>
    pose proof (keeps_ls a1 a2 a3 a4 a5 a6 a7 s3) as KL;
    destruct (Lbfgs.line_search o maxabs clo clo_g clo_ls wolfe yastn fuel a1 a2 a3 a4 a5 a6 a7 s3) as [s4 [e|r]] end.
  - cbn in KL. rewrite KL. split; [exact G3|]. eapply pre_base; [exact P|exact P3|exact Dsh].
  - cbn in KL. unfold ret. rewrite KL. split; [exact G3|]. split; [exact N3|]. split; [|split; [exact Dsh|cbn; eauto]].
    eapply pre_ext; [exact P3|..]; repeat split.
Qed.

(** a local memory [l] together with the rest of the optimizer *)
Definition with_mem (l : mem F) (a : opt F) : opt F :=
  {| o_grp := o_grp a; o_niter := o_niter a; o_mem := l; o_al := o_al a |}.

Lemma iterations_hist : forall k acc n shared pgs l ev loss fg nl ng (s : pst), pre acc shared l (p_opt s) ->
  match iterations k n shared pgs l ev loss fg nl ng s with
  | (s', inl e) => o_grp (p_opt s') = o_grp (p_opt s) /\ exists new, history o (base shared acc ++ new) (p_opt s')
  | (s', inr (l', _, _)) => o_grp (p_opt s') = o_grp (p_opt s) /\ exists new, pre (acc ++ new) true l' (with_mem l' (p_opt s'))
  end.
Proof.
  assert (fin : forall acc sh l a, pre acc sh l a -> pre acc true l (with_mem l a)).
  { intros acc sh l a (P1 & P2 & P3 & P4 & P5).
    split; [exact P1|]. split; [exact P2|]. split; [exact P3|]. split; [exact P4|].
    split; [repeat split|]. intros Hn. cbn in Hn. destruct sh; [apply P5; exact Hn|lia]. }
  induction k; intros acc n shared pgs l ev loss fg nl ng s P; cbn [Lbfgs.iterations].
  - unfold ret. split; [reflexivity|]. exists []. rewrite app_nil_r. eapply fin. exact P.
  - unfold mbind. pose proof (iteration_hist acc (n + 1) shared pgs l ev loss fg nl ng s P) as I1.
    destruct (iteration (n + 1) shared pgs l ev loss fg nl ng s) as [s1 [e|i]]; [exact I1|].
    destruct I1 as (G & N & P1 & Sh & _).
    set (acc1 := if (o_niter (p_opt s) =? 0)%Z then [] else new_pairs l fg) in *.
    destruct (i_break i).
    + unfold ret. split; [exact G|]. exists acc1. eapply fin. exact P1.
    + pose proof (IHk (acc ++ acc1) (n + 1)%Z (i_shared i) (i_pgshared i) (i_mem i) (i_evals i) loss fg (i_loss i) (i_grad i) s1 P1) as I2.
      destruct (iterations k (n + 1) (i_shared i) (i_pgshared i) (i_mem i) (i_evals i) loss fg (i_loss i) (i_grad i) s1) as [s2 [e|[[l2 nl2] ng2]]].
      * destruct I2 as [G2 [new HN]]. split; [congruence|].
        destruct shared; cbn [base].
        { destruct (i_shared i) eqn:Ei; cbn [base] in HN.
          - exists (acc1 ++ new). rewrite app_assoc. exact HN.
          - destruct Sh as [Sh|Sh]; [reflexivity|discriminate|]. destruct P as (_ & _ & _ & _ & _ & P7). destruct (P7 Sh) as [-> _]. eauto. }
        eauto.
      * destruct I2 as [G2 [new HN]]. split; [congruence|]. exists (acc1 ++ new). rewrite app_assoc. exact HN.
Qed.

Lemma history_pre acc a : (1 <= g_hist (o_grp a))%Z -> history o acc a -> pre acc true (o_mem a) a.
Proof.
  intros H1 (H2 & A & B & C). repeat split; auto.
  - destruct B as [B|[_ B]]; [left|right]; auto.
  - destruct B as [[B _]|[B _]]; [exact B|congruence].
  - destruct B as [[_ B]|[B _]]; [apply B|congruence].
  - destruct B as [[_ B]|[B _]]; [apply B|congruence].
  - destruct B as [[_ B]|[B _]]; [apply B|congruence].
Qed.

(** a step, whatever it does, only adds acceptable pairs and drops the oldest ones *)
Lemma step_hist acc nl ng (s : pst) : (1 <= g_hist (o_grp (p_opt s)))%Z -> history o acc (p_opt s) ->
  let s' := fst (step_2c nl ng s) in
  o_grp (p_opt s') = o_grp (p_opt s) /\ exists new, history o (acc ++ new) (p_opt s').
Proof.
  intros Hh H. cbv zeta.
  set (PP := fun x : pst * (exn + F * option F * option (list F)) =>
    o_grp (p_opt (fst x)) = o_grp (p_opt s) /\ exists new, history o (acc ++ new) (p_opt (fst x))).
  change (PP (step_2c nl ng s)).
  unfold step_2c. unfold mbind at 1.
  match goal with |- context [let (_, _) := ?m s in _] => assert (K : p_opt (fst (m s)) = p_opt s); [|destruct (m s) as [s1 [e|[[loss fg] ev]]]] end.
  { destruct nl; [destruct ng|]; [reflexivity| |].
    - unfold mbind, call. destruct (clo _ _) as [w [e|p]]; reflexivity.
    - unfold mbind, call. destruct (clo _ _) as [w [e|p]]; reflexivity. }
  - unfold PP. cbn in *. rewrite K. split; [reflexivity|]. exists []. rewrite app_nil_r. exact H.
  - cbn [fst] in K. unfold mbind at 1, get_opt at 1. rewrite K.
    destruct (fle o (maxabs fg) (g_tol_grad (o_grp (p_opt s)))).
    { unfold PP. cbn. rewrite K. split; [reflexivity|]. exists []. rewrite app_nil_r. exact H. }
    unfold mbind at 1.
    match goal with |- context [Lbfgs.iterations o maxabs sumabs clo clo_g clo_ls wolfe yastn fuel ?k ?a1 ?a2 ?a3 ?a4 ?a5 ?a6 ?a7 ?a8 ?a9 s1] =>
      pose proof (iterations_hist k acc a1 a2 a3 a4 a5 a6 a7 a8 a9 s1) as I1;
      destruct (Lbfgs.iterations o maxabs sumabs clo clo_g clo_ls wolfe yastn fuel k a1 a2 a3 a4 a5 a6 a7 a8 a9 s1) as [s2 [e|[[l nl2] ng2]]] end.
    + unfold PP. cbn [fst]. rewrite K in I1. apply I1. apply history_pre; auto.
    + rewrite K in I1. destruct I1 as [G [new P]]; [apply history_pre; auto|]. unfold PP. cbn. split; [exact G|].
      exists new. apply pre_history in P. exact P.
Qed.
End Step.
