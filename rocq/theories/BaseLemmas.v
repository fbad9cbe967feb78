(** Lemmas about the vocabulary of Base.v. *)
From Verif Require Import Base.
Open Scope Z_scope.

Ltac inv H := inversion H; subst; clear H.

Lemma bind_ok {A B} (m : res A) (f : A -> res B) b :
  bind m f = Ok b <-> exists a, m = Ok a /\ f a = Ok b.
Proof. destruct m as [a|e]; cbn; split.
  - intros Hb; eauto.
  - intros (a' & Ha & Hf); congruence.
  - discriminate.
  - intros (a' & Ha & _); discriminate.
Qed.

Ltac bind_inv H :=
  apply bind_ok in H; let a := fresh "a" in let Ha := fresh "Ha" in
  destruct H as (a & Ha & H).

Lemma eqb_true {A} `{EqDec A} (x y : A) : eqb x y = true <-> x = y.
Proof. unfold eqb; destruct (eq_dec x y); split; congruence. Qed.
Lemma eqb_false {A} `{EqDec A} (x y : A) : eqb x y = false <-> x <> y.
Proof. unfold eqb; destruct (eq_dec x y); split; congruence. Qed.

Section DictLemmas.
Context {K V : Type} `{EqDec K}.
Implicit Types (d : dict K V) (k : K) (v : V).

Lemma dget_dset_same d k v : dget (dset d k v) k = Some v.
Proof. induction d as [|[k' v'] d IH]; cbn.
  - destruct (eq_dec k k); congruence.
  - destruct (eq_dec k k') as [->|Hn]; cbn.
    + destruct (eq_dec k' k'); congruence.
    + destruct (eq_dec k k'); [congruence|exact IH].
Qed.

Lemma dget_dset_other d k k' v : k' <> k -> dget (dset d k v) k' = dget d k'.
Proof. intros Hk; induction d as [|[k1 v1] d IH]; cbn.
  - destruct (eq_dec k' k); congruence.
  - destruct (eq_dec k k1) as [->|Hn]; cbn.
    + destruct (eq_dec k' k1); congruence.
    + destruct (eq_dec k' k1); [reflexivity|exact IH].
Qed.

Lemma dget_dset d k k' v :
  dget (dset d k v) k' = if eq_dec k' k then Some v else dget d k'.
Proof. destruct (eq_dec k' k) as [->|Hn];
  [apply dget_dset_same | apply dget_dset_other; exact Hn]. Qed.

Lemma dget_In d k v : dget d k = Some v -> In (k, v) d.
Proof. induction d as [|[k' v'] d IH]; cbn; [discriminate|].
  destruct (eq_dec k k') as [->|Hn]; intros Hd; [left; congruence|right; auto]. Qed.

Lemma dget_None d k : dget d k = None <-> ~ In k (dkeys d).
Proof. induction d as [|[k' v'] d IH]; cbn; [tauto|].
  destruct (eq_dec k k') as [->|Hn].
  - split; [discriminate|intros Hf; exfalso; apply Hf; auto].
  - rewrite IH; split; intros Hf; [intros [He|Hi]; [congruence|tauto]|tauto]. Qed.

Lemma dget_Some_key d k : In k (dkeys d) <-> exists v, dget d k = Some v.
Proof. destruct (dget d k) as [v|] eqn:E.
  - split; [eauto|]; intros _; apply dget_In in E; unfold dkeys.
    change k with (fst (k, v)); apply in_map; exact E.
  - split; [|intros [v Hv]; discriminate]; intros Hi; apply dget_None in E; contradiction. Qed.

Lemma dkeys_dset d k v k' : In k' (dkeys (dset d k v)) <-> k' = k \/ In k' (dkeys d).
Proof. rewrite !dget_Some_key; setoid_rewrite dget_dset.
  destruct (eq_dec k' k); split; intros Hx; eauto.
  destruct Hx; [contradiction|assumption]. Qed.

Lemma NoDup_dset d k v : NoDup (dkeys d) -> NoDup (dkeys (dset d k v)).
Proof. induction d as [|[k' v'] d IH]; cbn; intros Hd.
  - repeat constructor; auto.
  - inv Hd. destruct (eq_dec k k') as [->|Hn]; cbn.
    + constructor; assumption.
    + constructor; [|auto]. intros Hi; change (In k' (dkeys (dset d k v))) in Hi.
      rewrite dkeys_dset in Hi; destruct Hi as [He|Hi]; [congruence|contradiction]. Qed.

Lemma In_dget d k v : NoDup (dkeys d) -> In (k, v) d -> dget d k = Some v.
Proof. induction d as [|[k' v'] d IH]; cbn; intros Hd Hi; [contradiction|]. inv Hd.
  destruct Hi as [He|Hi].
  - inv He. destruct (eq_dec k k); congruence.
  - destruct (eq_dec k k') as [->|Hn]; [|auto].
    exfalso; match goal with Hx : ~ In _ _ |- _ => apply Hx end.
    change k' with (fst (k', v)); apply in_map; exact Hi. Qed.

Lemma dset_new d k v : dget d k = None -> dset d k v = d ++ [(k, v)].
Proof. induction d as [|[k' v'] d IH]; cbn; [reflexivity|].
  destruct (eq_dec k k'); [discriminate|]; intros Hd; rewrite IH; auto. Qed.

Lemma dkeys_dset_old d k v : In k (dkeys d) -> dkeys (dset d k v) = dkeys d.
Proof. induction d as [|[k' v'] d IH]; cbn; [contradiction|].
  destruct (eq_dec k k') as [->|Hn]; cbn; [reflexivity|].
  intros [He|Hi]; [congruence|]; unfold dkeys in IH; rewrite IH; auto. Qed.

Lemma fold_dset_nodup (l : list (K * V)) d :
  NoDup (map fst l) -> (forall k, In k (map fst l) -> dget d k = None) ->
  fold_left (fun d kv => dset d (fst kv) (snd kv)) l d = d ++ l.
Proof. revert d; induction l as [|[k v] l IH]; cbn; intros d Hd Hn.
  - now rewrite app_nil_r.
  - inv Hd. rewrite dset_new by auto. rewrite IH; auto.
    + now rewrite <- app_assoc.
    + intros k' Hk'. rewrite <- (dset_new d k v) by auto.
      rewrite dget_dset_other by congruence; auto. Qed.

Lemma dict_of_nodup (l : list (K * V)) : NoDup (map fst l) -> dict_of l = l.
Proof. intros Hd; unfold dict_of; rewrite fold_dset_nodup; auto. Qed.

Lemma dict_of_app (l1 l2 : list (K * V)) :
  dict_of (l1 ++ l2) = fold_left (fun d kv => dset d (fst kv) (snd kv)) l2 (dict_of l1).
Proof. unfold dict_of; apply fold_left_app. Qed.

(** the value stored under a key is the last one written *)
Lemma dget_dict_of_snoc (l : list (K * V)) k v k' :
  dget (dict_of (l ++ [(k, v)])) k' = if eq_dec k' k then Some v else dget (dict_of l) k'.
Proof. rewrite dict_of_app; cbn; apply dget_dset. Qed.

Lemma dget_dict_of_In (l : list (K * V)) k v : dget (dict_of l) k = Some v -> In (k, v) l.
Proof. induction l as [|[k1 v1] l IH] using rev_ind; [discriminate|].
  rewrite dget_dict_of_snoc; destruct (eq_dec k k1) as [->|Hn]; rewrite in_app_iff.
  - intros He; right; left; congruence.
  - intros He; left; auto. Qed.

Lemma dget_dict_of_key (l : list (K * V)) k :
  (exists v, dget (dict_of l) k = Some v) <-> In k (map fst l).
Proof. induction l as [|[k1 v1] l IH] using rev_ind.
  - cbn; split; [intros [v Hv]; discriminate|contradiction].
  - setoid_rewrite dget_dict_of_snoc. rewrite map_app, in_app_iff; cbn.
    destruct (eq_dec k k1) as [->|Hn].
    + split; [auto|eauto].
    + rewrite IH; split; [auto|intros [Hi|[He|[]]]; [auto|congruence]]. Qed.

Lemma NoDup_dict_of (l : list (K * V)) : NoDup (dkeys (dict_of l)).
Proof. unfold dict_of. assert (Hn : NoDup (dkeys (@nil (K * V)))) by constructor.
  revert Hn; generalize (@nil (K * V)).
  induction l as [|[k v] l IH]; cbn; intros d Hd; [exact Hd|].
  apply IH; apply NoDup_dset; exact Hd. Qed.
End DictLemmas.

Lemma dget_exn_ok {K V} `{EqDec K} (d : dict K V) k v :
  dget_exn d k = Ok v <-> dget d k = Some v.
Proof. unfold dget_exn; destruct (dget d k); split; congruence. Qed.

(** ** monadic loops *)
Lemma foldM_app {A S} (f : S -> A -> res S) l1 l2 s :
  foldM f (l1 ++ l2) s = bind (foldM f l1 s) (foldM f l2).
Proof. revert s; induction l1 as [|a l1 IH]; cbn; intros s; [reflexivity|].
  destruct (f s a); cbn; auto. Qed.

Lemma mapM_ok {A B} (f : A -> res B) l bs :
  mapM f l = Ok bs <-> Forall2 (fun a b => f a = Ok b) l bs.
Proof. revert bs; induction l as [|a l IH]; intros bs; cbn.
  - split; [intros Hb; inv Hb; constructor|intros Hb; inv Hb; reflexivity].
  - split.
    + intros Hb; bind_inv Hb; bind_inv Hb. inv Hb. constructor; [assumption|].
      apply IH; assumption.
    + intros Hb; inv Hb. apply bind_ok; eexists; split; [eassumption|].
      apply bind_ok; eexists; split; [apply IH; eassumption|reflexivity]. Qed.

Lemma mapM_Ok_map {A B} (f : A -> res B) (g : A -> B) l :
  (forall a, In a l -> f a = Ok (g a)) -> mapM f l = Ok (map g l).
Proof. induction l as [|a l IH]; cbn; intros Hf; [reflexivity|].
  rewrite Hf by auto; cbn; rewrite IH by auto; reflexivity. Qed.

(** ** ranges *)
Lemma In_zrange n z : In z (zrange n) <-> 0 <= z < n.
Proof. unfold zrange; rewrite in_map_iff; split.
  - intros (k & <- & Hk); apply in_seq in Hk; lia.
  - intros Hz; exists (Z.to_nat z); split; [lia|apply in_seq; lia]. Qed.

Lemma NoDup_zrange n : NoDup (zrange n).
Proof. unfold zrange; apply FinFun.Injective_map_NoDup; [intros a b; lia|apply seq_NoDup]. Qed.

Lemma length_zrange n : length (zrange n) = Z.to_nat n.
Proof. unfold zrange; now rewrite map_length, seq_length. Qed.

Lemma zmin_list_spec l m : zmin_list l = Ok m -> In m l /\ forall z, In z l -> m <= z.
Proof. destruct l as [|a l]; [discriminate|]; cbn; intros Hm; inv Hm.
  revert a; induction l as [|b l IH]; intros a; cbn.
  - split; [auto|intros z [->|[]]; lia].
  - destruct (IH (Z.min a b)) as [Hi Hle]; split.
    + destruct Hi as [He|Hi]; [|auto]. rewrite <- He.
      destruct (Z.min_spec a b) as [[_ ->]|[_ ->]]; auto.
    + specialize (Hle (Z.min a b) (or_introl eq_refl)) as H1.
      intros z [->|[->|Hz]]; [lia|lia|apply Hle; right; exact Hz]. Qed.

Lemma zmax_list_spec l m : zmax_list l = Ok m -> In m l /\ forall z, In z l -> z <= m.
Proof. destruct l as [|a l]; [discriminate|]; cbn; intros Hm; inv Hm.
  revert a; induction l as [|b l IH]; intros a; cbn.
  - split; [auto|intros z [->|[]]; lia].
  - destruct (IH (Z.max a b)) as [Hi Hle]; split.
    + destruct Hi as [He|Hi]; [|auto]. rewrite <- He.
      destruct (Z.max_spec a b) as [[_ ->]|[_ ->]]; auto.
    + specialize (Hle (Z.max a b) (or_introl eq_refl)) as H1.
      intros z [->|[->|Hz]]; [lia|lia|apply Hle; right; exact Hz]. Qed.

(** ** coordinate order *)
Lemma cleb_refl a : cleb a a = true.
Proof. unfold cleb; lia. Qed.
Lemma cleb_trans a b c : cleb a b = true -> cleb b c = true -> cleb a c = true.
Proof. unfold cleb; lia. Qed.
Lemma cleb_total a b : cleb a b = true \/ cleb b a = true.
Proof. unfold cleb; lia. Qed.
Lemma cleb_antisym a b : cleb a b = true -> cleb b a = true -> a = b.
Proof. unfold cleb; destruct a as [a1 a2], b as [b1 b2]; cbn; intros H1 H2.
  f_equal; lia. Qed.

Lemma cmin_from_spec m l : In (cmin_from m l) (m :: l) /\
  forall c, In c (m :: l) -> cleb (cmin_from m l) c = true.
Proof. revert m; induction l as [|a l IH]; intros m; cbn [cmin_from].
  - split; [left; reflexivity|intros c [->|[]]; apply cleb_refl].
  - destruct (IH (if cleb m a then m else a)) as [Hi Hle]; split.
    + destruct Hi as [He|Hi]; [|right; right; exact Hi]. rewrite <- He.
      destruct (cleb m a); [left|right; left]; reflexivity.
    + specialize (Hle _ (or_introl eq_refl)) as H1.
      intros c [<-|[<-|Hc]]; [| |apply Hle; right; exact Hc].
      * destruct (cleb m a) eqn:E; [exact H1|].
        eapply cleb_trans; [exact H1|]. destruct (cleb_total m a); congruence.
      * destruct (cleb m a) eqn:E; [|exact H1]. eapply cleb_trans; eassumption. Qed.

Lemma cmin_spec l m : cmin l = Ok m -> In m l /\ forall c, In c l -> cleb m c = true.
Proof. destruct l as [|c l]; [discriminate|]; cbn [cmin]; intros Hm; inv Hm.
  apply cmin_from_spec. Qed.

Lemma cmin_ok l : l <> [] -> exists m, cmin l = Ok m.
Proof. destruct l; [congruence|]; cbn; eauto. Qed.

Lemma cinsert_perm c l : Permutation (cinsert c l) (c :: l).
Proof. induction l as [|a l IH]; cbn; [reflexivity|].
  destruct (cleb c a); [reflexivity|].
  etransitivity; [apply perm_skip; exact IH|apply perm_swap]. Qed.

Lemma csort_perm l : Permutation (csort l) l.
Proof. induction l as [|a l IH]; cbn; [reflexivity|].
  rewrite cinsert_perm; now apply perm_skip. Qed.

Definition cle (a b : coord) : Prop := cleb a b = true.

Lemma cinsert_sorted c l : StronglySorted cle l -> StronglySorted cle (cinsert c l).
Proof. induction l as [|a l IH]; cbn; intros Hs.
  - repeat constructor.
  - inv Hs. destruct (cleb c a) eqn:E.
    + constructor; [constructor; assumption|].
      constructor; [exact E|]. eapply Forall_impl; [|eassumption].
      intros x Hx; unfold cle in *; eapply cleb_trans; eassumption.
    + constructor; [auto|].
      apply Forall_forall; intros x Hx.
      apply (Permutation_in _ (cinsert_perm c l)) in Hx.
      destruct Hx as [<-|Hx].
      * unfold cle; destruct (cleb_total c a); congruence.
      * rewrite Forall_forall in *; auto. Qed.

Lemma csort_sorted l : StronglySorted cle (csort l).
Proof. induction l; cbn; [constructor|apply cinsert_sorted; assumption]. Qed.

Lemma length_nodup_le1 {A} `{EqDec A} (l : list A) :
  (length (nodup eq_dec l) <= 1)%nat <-> forall a b, In a l -> In b l -> a = b.
Proof. split.
  - intros Hl a b Ha Hb. apply (nodup_In eq_dec) in Ha, Hb.
    destruct (nodup eq_dec l) as [|x [|y r]]; cbn in *; [contradiction| |lia].
    destruct Ha as [<-|[]], Hb as [<-|[]]; reflexivity.
  - intros He. destruct (nodup eq_dec l) as [|x [|y r]] eqn:E; cbn; [lia|lia|].
    exfalso. assert (Hd := NoDup_nodup eq_dec l). rewrite E in Hd. inv Hd.
    apply H2; left. apply He; apply (nodup_In eq_dec); rewrite E; cbn; auto. Qed.

Lemma Forall2_In_r {A B} (R : A -> B -> Prop) l l' b :
  Forall2 R l l' -> In b l' -> exists a, In a l /\ R a b.
Proof. induction 1 as [|a b' l l' Hab Hf IH]; [contradiction|].
  intros [->|Hi]; [exists a; split; [left; reflexivity|exact Hab]|].
  destruct (IH Hi) as (a' & Ha & Hr); exists a'; split; [right; exact Ha|exact Hr]. Qed.

Lemma Forall2_In_l {A B} (R : A -> B -> Prop) l l' a :
  Forall2 R l l' -> In a l -> exists b, In b l' /\ R a b.
Proof. induction 1 as [|a' b l l' Hab Hf IH]; [contradiction|].
  intros [->|Hi]; [exists b; split; [left; reflexivity|exact Hab]|].
  destruct (IH Hi) as (b' & Hb & Hr); exists b'; split; [right; exact Hb|exact Hr]. Qed.

Lemma Forall2_nth {A B} (R : A -> B -> Prop) l l' n a b :
  Forall2 R l l' -> nth_error l n = Some a -> nth_error l' n = Some b -> R a b.
Proof. intros Hf; revert n; induction Hf as [|a' b' l l' Hab Hf IH]; intros [|n]; cbn;
  intros Ha Hb; try discriminate; [congruence|eauto]. Qed.

Lemma nth_error_zrange n z : 0 <= z < n -> nth_error (zrange n) (Z.to_nat z) = Some z.
Proof. intros Hz. unfold zrange. rewrite nth_error_map, nth_error_nth' with (d := 0%nat)
    by (rewrite seq_length; lia). rewrite seq_nth by lia. cbn. f_equal; lia. Qed.

Lemma NoDup_app_intro {A} (l1 l2 : list A) :
  NoDup l1 -> NoDup l2 -> (forall a, In a l1 -> ~ In a l2) -> NoDup (l1 ++ l2).
Proof. induction l1 as [|a l1 IH]; cbn; intros H1 H2 Hd; [assumption|].
  apply NoDup_cons_iff in H1; destruct H1 as [Ha H1].
  constructor.
  - rewrite in_app_iff; intros [Hi|Hi]; [contradiction|apply (Hd a); auto].
  - apply IH; auto. Qed.

Lemma Forall2_len {A B} (R : A -> B -> Prop) l l' : Forall2 R l l' -> length l = length l'.
Proof. induction 1; cbn; congruence. Qed.

Lemma NoDup_map_inj {A B} (f : A -> B) l :
  (forall a a', In a l -> In a' l -> f a = f a' -> a = a') -> NoDup l -> NoDup (map f l).
Proof. induction l as [|a l IH]; cbn; intros Hf Hn; [constructor|].
  apply NoDup_cons_iff in Hn; destruct Hn as [Ha Hn]. constructor; [|apply IH; auto].
  intros Hi; apply in_map_iff in Hi; destruct Hi as (a' & He & Ha').
  apply Ha. replace a with a' by (apply Hf; auto). exact Ha'. Qed.
