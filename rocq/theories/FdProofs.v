From Verif Require Import Base BaseLemmas Flt Lbfgs LbfgsProofs FdGrad FdSpec.
Open Scope list_scope.

Section P.
Context {F : Type} (o : fops F) {W : Type}.
Variable loss_fn : list (list F) -> W -> W * (exn + F).
Variables (eps loss0 : F).
Variable tr : W -> list (list (list F)).
Hypothesis tr_c : forall x w, tr (fst (loss_fn x w)) = tr w ++ [x].
Notation fd_comp := (fd_comp o loss_fn eps loss0).
Notation fd_loop := (fd_loop o loss_fn eps loss0).
Notation grad_fd := (grad_fd o loss_fn eps loss0).

Lemma setitem_restore {A} : forall (x y : list A) k v a, nth_error x k = Some a -> setitem x k v = Ok y -> setitem y k a = Ok x.
Proof.
  induction x; intros y [|k] v b H1 H2; cbn in *; try discriminate.
  - assert (y = v :: x) by congruence. subst. cbn. congruence.
  - destruct (setitem x k v) as [z|] eqn:E; [|discriminate]. cbn in H2. assert (y = a :: z) by congruence. subst. cbn.
    rewrite (IHx _ _ _ _ H1 E). reflexivity.
Qed.

Lemma bump_e v i : vadd o v (e_ o eps (length v) i) = bump_vec o eps i v.
Proof.
  unfold e_, vadd.
  assert (G : forall v i j, map2 (fadd o) v (map (fun m => if Nat.eqb m (j + i) then eps else fq o 0 1) (seq j (length v))) = bump_vec o eps i v).
  { clear. induction v as [|a v IH]; intros i j; [destruct i; reflexivity|]. cbn [length seq map map2 bump_vec]. destruct i.
    - replace (j + 0)%nat with j by lia. rewrite Nat.eqb_refl. cbn [bump_vec]. f_equal.
      assert (Z : forall v m, (j < m)%nat -> map2 (fadd o) v (map (fun q => if Nat.eqb q j then eps else fq o 0 1) (seq m (length v))) = map (fun b => fadd o b (fq o 0 1)) v).
      { clear. induction v; intros m H; [reflexivity|]. cbn. destruct (Nat.eqb_spec m j); [lia|]. f_equal. apply IHv. lia. }
      apply Z. lia.
    - destruct (Nat.eqb_spec j (j + S i)); [lia|]. cbn [bump_vec]. f_equal. replace (j + S i)%nat with (S j + i)%nat by lia. apply IH. }
  apply (G v i 0%nat).
Qed.

Lemma setitem_shifted : forall (x : list (list F)) k v i, nth_error x k = Some v -> setitem x k (bump_vec o eps i v) = Ok (shifted o eps k i x).
Proof.
  induction x; intros [|k] v i H; cbn in *; try discriminate.
  - congruence.
  - rewrite (IHx _ _ _ H). reflexivity.
Qed.

Lemma fd_comp_ok x k orig : nth_error x k = Some orig -> forall m i0 g (s s' : fst_) r, f_x s = x ->
  fd_comp k orig m i0 g s = (s', inr r) ->
  f_x s' = x /\ tr (f_w s') = tr (f_w s) ++ map (fun i => shifted o eps k i x) (seq i0 m).
Proof.
  intros Hk. induction m; intros i0 g s s' r Hx H.
  - cbn in H. unfold ret in H. assert (s' = s) by congruence. subst. rewrite app_nil_r. auto.
  - cbn [FdGrad.fd_comp] in H. unfold mbind at 1, getk in H. unfold getitem in H. rewrite Hx, Hk in H.
    unfold mbind at 1, putk at 1 in H. rewrite bump_e, Hx in H.
    destruct (setitem x k (bump_vec o eps i0 orig)) as [y|] eqn:Ey; [|discriminate].
    unfold mbind at 1, eval_loss in H. cbn [f_x f_w] in H.
    pose proof (tr_c y (f_w s)) as T. destruct (loss_fn y (f_w s)) as [w [e|l]]; [discriminate|]. cbn [fst] in T.
    unfold mbind at 1, lift in H. destruct (setitem g i0 _) as [g'|]; [|discriminate]. cbn [ret] in H. unfold ret in H.
    unfold mbind at 1, putk at 1 in H. cbn [f_x f_w] in H. rewrite (setitem_restore x y k _ orig Hk Ey) in H.
    apply IHm in H; [|reflexivity]. cbn [f_x f_w] in H. destruct H as [H1 H2]. split; [exact H1|].
    rewrite H2, T. cbn [seq map]. rewrite <- app_assoc. cbn.
    rewrite (setitem_shifted _ _ _ _ Hk) in Ey. f_equal. f_equal. congruence.
Qed.

Lemma fd_loop_ok x : forall m k0 (s s' : fst_) r, f_x s = x -> fd_loop m k0 s = (s', inr r) ->
  f_x s' = x /\ tr (f_w s') = tr (f_w s) ++
    concat (map (fun k => map (fun i => shifted o eps k i x) (seq 0 (length (nth k x [])))) (seq k0 m)).
Proof.
  induction m; intros k0 s s' r Hx H.
  - cbn in H. unfold ret in H. assert (s' = s) by congruence. subst. rewrite app_nil_r. auto.
  - cbn [FdGrad.fd_loop] in H. unfold mbind at 1, getk in H. unfold getitem in H. rewrite Hx in H.
    destruct (nth_error x k0) as [orig|] eqn:Ek; [|discriminate].
    unfold mbind at 1 in H. destruct (fd_comp k0 orig (length orig) 0 (repeat (fq o 0 1) (length orig)) s) as [s1 [e|g]] eqn:E1; [discriminate|].
    apply (fd_comp_ok x _ _ Ek) in E1; [|exact Hx]. destruct E1 as [X1 T1].
    unfold mbind at 1 in H. destruct (fd_loop m (S k0) s1) as [s2 [e|rest]] eqn:E2; [discriminate|].
    apply (IHm _ _ _ _ X1) in E2. destruct E2 as [X2 T2]. unfold ret in H. assert (s' = s2) by congruence. subst s2.
    split; [exact X2|]. rewrite T2, T1. cbn [seq map concat]. rewrite <- app_assoc.
    rewrite (nth_error_nth x k0 [] Ek). reflexivity.
Qed.

Lemma grad_fd_ok (s s' : fst_) r : grad_fd s = (s', inr r) ->
  f_x s' = f_x s /\ tr (f_w s') = tr (f_w s) ++ map (fun p => shifted o eps (fst p) (snd p) (f_x s)) (components (f_x s)).
Proof.
  intros H. unfold grad_fd in H. apply (fd_loop_ok (f_x s)) in H; [|reflexivity]. destruct H as [H1 H2]. split; [exact H1|].
  rewrite H2. f_equal. unfold components. rewrite concat_map, map_map. f_equal. apply map_ext. intros k. rewrite map_map. reflexivity.
Qed.
End P.

(** values, for a loss that depends on the coefficients only *)
Section V.
Context {F : Type} (o : fops F).
Variable f : list (list F) -> F.
Variables (eps loss0 : F).
Notation pure_loss := (pure_loss f).
Notation fd_comp := (fd_comp o pure_loss eps loss0).
Notation fd_loop := (fd_loop o pure_loss eps loss0).

Lemma setitem_app {A} : forall (p : list A) a q b, setitem (p ++ a :: q) (length p) b = Ok (p ++ b :: q).
Proof. induction p; intros; cbn; auto. rewrite IHp. reflexivity. Qed.

Lemma fd_comp_val x k orig : nth_error x k = Some orig -> forall m i0 g0 s, f_x s = x -> length g0 = i0 ->
  fd_comp k orig m i0 (g0 ++ repeat (fq o 0 1) m) s =
    (s, inr (g0 ++ map (fun i => fdiv o (fsub o (f (shifted o eps k i x)) loss0) eps) (seq i0 m))).
Proof.
  intros Hk. induction m; intros i0 g0 s Hx Hg.
  - cbn. rewrite !app_nil_r. reflexivity.
  - cbn [FdGrad.fd_comp]. unfold mbind at 1, getk. unfold getitem. rewrite Hx, Hk.
    unfold mbind at 1, putk at 1. rewrite bump_e, Hx, (setitem_shifted o eps _ _ _ _ Hk).
    unfold mbind at 1, eval_loss, FdSpec.pure_loss at 1. cbn [f_x f_w].
    unfold mbind at 1, lift. cbn [repeat]. rewrite <- Hg, setitem_app. unfold ret at 1. rewrite Hg.
    unfold mbind at 1, putk at 1. cbn [f_x f_w].
    rewrite (setitem_restore x _ k _ orig Hk (setitem_shifted o eps _ _ _ i0 Hk)).
    replace (g0 ++ fdiv o (fsub o (f (shifted o eps k i0 x)) loss0) eps :: repeat (fq o 0 1) m)
      with ((g0 ++ [fdiv o (fsub o (f (shifted o eps k i0 x)) loss0) eps]) ++ repeat (fq o 0 1) m) by (rewrite <- app_assoc; reflexivity).
    rewrite IHm; [|reflexivity|rewrite app_length; cbn; lia]. f_equal; [destruct s; cbn in *; subst; reflexivity|].
    f_equal. cbn [seq map]. rewrite <- app_assoc. reflexivity.
Qed.

Lemma fd_loop_val x : forall m k0 s, f_x s = x -> (k0 + m <= length x)%nat ->
  fd_loop m k0 s = (s, inr (map (fun k => map (fun i => fdiv o (fsub o (f (shifted o eps k i x)) loss0) eps) (seq 0 (length (nth k x [])))) (seq k0 m))).
Proof.
  induction m; intros k0 s Hx Hk; [reflexivity|].
  cbn [FdGrad.fd_loop]. unfold mbind at 1, getk. unfold getitem. rewrite Hx.
  destruct (nth_error x k0) as [orig|] eqn:Ek; [|apply nth_error_None in Ek; lia].
  unfold mbind at 1.
  pose proof (fd_comp_val x k0 orig Ek (length orig) 0 [] s Hx eq_refl) as C. cbn [app] in C. rewrite C.
  unfold mbind at 1. rewrite IHm; [|exact Hx|lia]. unfold ret. f_equal. f_equal. cbn [seq map]. f_equal.
  rewrite (nth_error_nth x k0 [] Ek). reflexivity.
Qed.

Lemma grad_fd_val s : grad_fd o pure_loss eps loss0 s = (s, inr (quotients o eps f loss0 (f_x s))).
Proof. unfold grad_fd. rewrite (fd_loop_val (f_x s)); auto. Qed.
End V.
