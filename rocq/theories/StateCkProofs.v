(** Proofs about checkpoints of the state classes. *)
From Coq Require Import String List ZArith Bool Lia.
From Verif Require Import Base BaseLemmas StateCk StateCkSpec.
Import ListNotations.
Open Scope list_scope.
Open Scope res_scope.

Section P.
Context {A : Type}.
Notation pyv := (pyv A).
Notation tens := (tens A).

Definition enc (d : list (pykey * tens)) : list (pykey * pyv) := map (fun kt => (fst kt, PT (snd kt))) d.
Definition offs (d : list (pykey * tens)) : list (pykey * tens) := map (fun kt => (fst kt, off (snd kt))) d.

Lemma values_off_enc d : values_off (PDict (enc d)) = Ok (PDict (enc (offs d))).
Proof.
  unfold values_off; cbn [py_values bind]. unfold enc, offs.
  assert (E : mapM (fun kv : pykey * pyv => bind (grad_off (snd kv)) (fun x => Ok (fst kv, x)))
     (map (fun kt : pykey * tens => (fst kt, PT (snd kt))) d) =
     Ok (map (fun kt => (fst kt, PT (snd kt))) (map (fun kt => (fst kt, off (snd kt))) d))).
  { induction d as [|[k t] d IH]; [reflexivity|]. cbn [map mapM fst snd grad_off bind].
    rewrite IH. reflexivity. }
  rewrite E. reflexivity.
Qed.

Lemma dvals_enc d : dvals (enc d) = map PT (map snd d).
Proof. unfold dvals, enc. rewrite !map_map. reflexivity. Qed.

Lemma t_val_offs d : map t_val (map snd (offs d)) = map t_val (map snd d).
Proof. unfold offs. rewrite !map_map. reflexivity. Qed.

Lemma values_complex_enc cplx d :
  values_complex cplx (PDict (enc d)) = Ok (existsb (fun kt => cplx (t_val (snd kt))) d).
Proof.
  unfold values_complex; cbn [py_values bind]. rewrite dvals_enc.
  rewrite (mapM_Ok_map _ (fun v => match v with PT t => cplx (t_val t) | _ => false end)).
  - cbn [bind]. f_equal. rewrite !map_map. induction d as [|x d IH]; [reflexivity|].
    cbn [map existsb]. now rewrite IH.
  - intros a Ha. apply in_map_iff in Ha. destruct Ha as (t & <- & _). reflexivity.
Qed.

Lemma same_enc d d' :
  map (fun kt => (fst kt, t_val (snd kt))) d' = map (fun kt => (fst kt, t_val (snd kt))) d ->
  same_sites (PDict (enc d)) (PDict (enc d')).
Proof. intros H. exists d, d'. repeat split; try reflexivity. exact H. Qed.

Lemma same_sites_offs d : same_sites (PDict (enc d)) (PDict (enc (offs d))).
Proof. apply same_enc. unfold offs. rewrite map_map. reflexivity. Qed.

Lemma same_parameters_offs d :
  same_parameters (py_values (PDict (enc d))) (py_values (PDict (enc (offs d)))).
Proof.
  cbn [py_values]. rewrite !dvals_enc. exists (map PT (map snd d)), (map PT (map snd (offs d))).
  exists (map snd d), (map snd (offs d)).
  repeat split; try reflexivity. apply t_val_offs.
Qed.

Lemma detached_offs d : detached (py_values (PDict (enc (offs d)))).
Proof.
  cbn [py_values]. rewrite dvals_enc. eexists; split; [reflexivity|].
  intros t Ht. apply in_map_iff in Ht. destruct Ht as (t' & E & Hin). inversion E; subst t'.
  apply in_map_iff in Hin. destruct Hin as ((k & u) & E' & Hin). cbn in E'. subst u.
  unfold offs in Hin. apply in_map_iff in Hin. destruct Hin as (x & E'' & _).
  inversion E''. reflexivity.
Qed.

(** reading the file *)
Lemma get_parameters_entry e l o (p : pyv) :
  py_get (store_checkpoint e l o p) (KStr "parameters") = Ok p.
Proof. reflexivity. Qed.

(** *** IPEPS *)
Section Ipeps.
Variable cplx : A -> bool.
Theorem ipeps_restores :
  restores_detached ipeps_made anywhere ipeps_parameters ipeps_checkpoint (ipeps_load cplx) i_sites.
Proof.
  split.
  - intros st0 st e l o (d & Hd) _. red in Hd. fold (enc d) in Hd.
    unfold ipeps_load, ipeps_checkpoint. rewrite get_parameters_entry. cbn [bind].
    rewrite Hd, values_off_enc. cbn [bind]. rewrite values_complex_enc. cbn [bind].
    eexists; split; [reflexivity|]. unfold ipeps_parameters. cbn [i_sites]. rewrite Hd.
    split; [apply same_parameters_offs | apply same_sites_offs].
  - intros st0 st e l o st' (d & Hd) _. red in Hd. fold (enc d) in Hd.
    unfold ipeps_load, ipeps_checkpoint. rewrite get_parameters_entry. cbn [bind].
    rewrite Hd, values_off_enc. cbn [bind]. rewrite values_complex_enc. cbn [bind].
    intros H; injection H as <-. apply detached_offs.
Qed.

(** the dtype follows complex tensors *)
Theorem ipeps_dtype st0 st e l o st' : ipeps_made st ->
  ipeps_load cplx st0 (store_checkpoint e l o (ipeps_checkpoint st)) = Ok st' ->
  i_complex st0 = false -> dtype_agrees cplx (i_complex st') (i_sites st').
Proof.
  intros (d & Hd). red in Hd. fold (enc d) in Hd.
  unfold ipeps_load, ipeps_checkpoint. rewrite get_parameters_entry. cbn [bind].
  rewrite Hd, values_off_enc. cbn [bind]. rewrite values_complex_enc. cbn [bind].
  intros H; injection H as <-. intros H0. rewrite H0. intros d' Hd'. cbn [i_sites i_complex] in *.
  red in Hd'. injection Hd' as Hd'.
  assert (E : offs d = d').
  { revert d' Hd'. induction (offs d) as [|[k t] m IH]; intros [|[k' t'] m'] E; try discriminate; auto.
    cbn in E. inversion E; subst. f_equal. now apply IH. }
  rewrite <- E. destruct (existsb _ (offs d)); reflexivity.
Qed.

(** *** IPEPS_1S_Q *)
Theorem q_restores :
  restores_detached q_made anywhere q_parameters q_checkpoint (q_load cplx) q_sites.
Proof.
  assert (G : forall st0 st e l o, q_made st -> exists d q, q_sites st = PDict (enc d) /\ q_q st = PT q /\
     q_load cplx st0 (store_checkpoint e l o (q_checkpoint st)) =
     Ok (mk_q (PDict (enc (offs d))) (PT (off q))
          (if existsb (fun kt => cplx (t_val (snd kt))) (offs d) then true else q_complex st0))).
  { intros st0 st e l o ((d & Hd) & q & Hq). red in Hd. fold (enc d) in Hd.
    exists d, q; repeat split; auto.
    unfold q_load, q_checkpoint. rewrite get_parameters_entry. cbn [bind unpack2 py_iter].
    rewrite Hd, Hq, values_off_enc. cbn [bind grad_off]. rewrite values_complex_enc. reflexivity. }
  split.
  - intros st0 st e l o M _. destruct (G st0 st e l o M) as (d & q & Hd & Hq & E). rewrite E.
    eexists; split; [reflexivity|]. cbn [q_sites]. split; [|rewrite Hd; apply same_sites_offs].
    unfold q_parameters. cbn [q_sites q_q]. rewrite Hd, Hq. cbn [py_values bind]. rewrite !dvals_enc.
    exists (map PT (map snd d) ++ [PT q]), (map PT (map snd (offs d)) ++ [PT (off q)]).
    exists (map snd d ++ [q]), (map snd (offs d) ++ [off q]).
    repeat split; try reflexivity; unfold tensors; rewrite ?map_app; try reflexivity.
    f_equal. apply t_val_offs.
  - intros st0 st e l o st' M _. destruct (G st0 st e l o M) as (d & q & Hd & Hq & E). rewrite E.
    intros H; injection H as <-. unfold q_parameters. cbn [q_sites q_q py_values bind].
    eexists; split; [reflexivity|]. intros t Ht. apply in_app_or in Ht. destruct Ht as [Ht|Ht].
    + destruct (detached_offs d) as (l' & El & H). cbn [py_values] in El. injection El as <-. now apply H.
    + destruct Ht as [Ht|[]]. inversion Ht; reflexivity.
Qed.

(** *** IPEPS_D2SYM *)
Variable flip : A -> A.
Theorem d2_restores :
  restores_detached (d2_made cplx flip) anywhere d2_parameters d2_checkpoint (d2_load flip) d_sites.
Proof.
  assert (G : forall st, d2_made cplx flip st -> exists t, d_parent st = PT t /\
     d_sites st = PDict (enc [(KCoord (0, 0)%Z, t); (KCoord (0, 1)%Z, mkt (flip (t_val t)) (t_grad t))])).
  { intros st (c & t & H). unfold d2_new, d2_build in H. cbn [tensor bind] in H.
    apply bind_ok in H. destruct H as (b & _ & H). injection H as <-. exists t. split; reflexivity. }
  split.
  - intros st0 st e l o M _. destruct (G st M) as (t & Hp & Hs).
    unfold d2_load, d2_checkpoint. rewrite get_parameters_entry. cbn [bind]. rewrite Hp.
    cbn [grad_off bind]. unfold d2_build. cbn [tensor bind].
    eexists; split; [reflexivity|]. cbn [d_sites]. split.
    + exists [PT t], [PT (off t)], [t], [off t]. unfold d2_parameters, tensors. cbn [d_parent].
      rewrite Hp. repeat split; reflexivity.
    + rewrite Hs. exists [(KCoord (0, 0)%Z, t); (KCoord (0, 1)%Z, mkt (flip (t_val t)) (t_grad t))].
      exists [(KCoord (0, 0)%Z, off t); (KCoord (0, 1)%Z, mkt (flip (t_val t)) false)].
      repeat split; reflexivity.
  - intros st0 st e l o st' M _. destruct (G st M) as (t & Hp & Hs).
    unfold d2_load, d2_checkpoint. rewrite get_parameters_entry. cbn [bind]. rewrite Hp.
    cbn [grad_off bind]. unfold d2_build. cbn [tensor bind]. intros H; injection H as <-.
    unfold d2_parameters. cbn [d_parent]. eexists; split; [reflexivity|].
    intros u [E|[]]. inversion E; reflexivity.
Qed.

(** *** the triangular lattice *)
Variable trgl : A -> A -> res A.
Theorem tri_fails st0 st e l o :
  tri_load cplx trgl st0 (store_checkpoint e l o (tri_checkpoint st)) = Err KeyError.
Proof. reflexivity. Qed.
End Ipeps.

(** *** lists of steps with related arguments *)
Lemma mapM_rel {X Y X' Y' : Type} (R : X -> X' -> Prop) (Q : Y -> Y' -> Prop)
    (f : X -> res Y) (f' : X' -> res Y') :
  (forall x x' y, R x x' -> f x = Ok y -> exists y', f' x' = Ok y' /\ Q y y') ->
  forall l l', Forall2 R l l' -> forall ys, mapM f l = Ok ys ->
  exists ys', mapM f' l' = Ok ys' /\ Forall2 Q ys ys'.
Proof.
  intros H. induction 1 as [|x x' l l' Hx Hl IH]; intros ys E; cbn [mapM] in *.
  - injection E as <-. exists []. split; [reflexivity|constructor].
  - apply bind_ok in E. destruct E as (y & Ey & E). apply bind_ok in E. destruct E as (ys0 & Eys & E).
    injection E as <-. destruct (H _ _ _ Hx Ey) as (y' & Ey' & Hy).
    destruct (IH _ Eys) as (ys' & Eys' & Hys). exists (y' :: ys').
    rewrite Ey'. cbn [bind]. rewrite Eys'. split; [reflexivity|now constructor].
Qed.

(** entries holding tensors of the same value *)
Definition same_entry (x y : pykey * pyv) : Prop :=
  fst x = fst y /\ exists t t', snd x = PT t /\ snd y = PT t' /\ t_val t' = t_val t.

Lemma same_entries d d' : Forall2 same_entry d d' ->
  exists c c', d = enc c /\ d' = enc c' /\
    map (fun kt => (fst kt, t_val (snd kt))) c' = map (fun kt => (fst kt, t_val (snd kt))) c.
Proof.
  induction 1 as [|[k v] [k' v'] d d' (Ek & t & t' & Et & Et' & Ev) Hd (c & c' & Ec & Ec' & E)].
  - exists [], []; repeat split; reflexivity.
  - cbn [fst snd] in *. subst. exists ((k', t) :: c), ((k', t') :: c').
    repeat split; try reflexivity. cbn [map fst snd]. now rewrite E, Ev.
Qed.

Lemma same_entries_sites d d' : Forall2 same_entry d d' -> same_sites (PDict d) (PDict d').
Proof. intros H. destruct (same_entries _ _ H) as (c & c' & -> & -> & E). now apply same_enc. Qed.

Lemma offs_same_entries d : Forall2 same_entry (enc d) (enc (offs d)).
Proof.
  induction d as [|[k t] d IH]; constructor; auto. split; [reflexivity|].
  exists t, (off t). repeat split.
Qed.

End P.
