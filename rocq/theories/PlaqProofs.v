(** Sums over the torus and placement of local operators. *)
From Coq Require Import Lia Ring Permutation.
From Verif Require Import Base BaseLemmas Tensor TensorLemmas Plaq PlaqSpec.
Open Scope list_scope.
Open Scope Z_scope.

Section Torus.
Context {K : Type} (k0 k1 : K) (kadd kmul ksub : K -> K -> K) (kopp : K -> K).
Hypothesis Kr : ring_theory k0 k1 kadd kmul ksub kopp (@eq K).
Add Ring Kring : Kr.
Notation "a +k b" := (kadd a b) (at level 50, left associativity).
Notation "a *k b" := (kmul a b) (at level 40, left associativity).
Notation sum l := (fold_right kadd k0 l).

(** ** finite sums *)
Lemma sum_app l l' : sum (l ++ l') = sum l +k sum l'.
Proof. induction l as [|x l IH]; cbn; [ring|]. rewrite IH. ring. Qed.
Lemma sum_map_add {I} (l : list I) f g : sum (map (fun i => f i +k g i) l) = sum (map f l) +k sum (map g l).
Proof. induction l as [|x l IH]; cbn; [ring|]. rewrite IH. ring. Qed.
Lemma sum_map_scale {I} (l : list I) c f : sum (map (fun i => c *k f i) l) = c *k sum (map f l).
Proof. induction l as [|x l IH]; cbn; [ring|]. rewrite IH. ring. Qed.
Lemma sum_map_ext {I} (l : list I) f g : (forall i, In i l -> f i = g i) -> sum (map f l) = sum (map g l).
Proof. intros H. f_equal. now apply map_ext_in. Qed.
Lemma sum_perm l l' : Permutation l l' -> sum l = sum l'.
Proof. induction 1; cbn; try congruence; ring. Qed.
Lemma sum_zero {I} (l : list I) f : (forall i, In i l -> f i = k0) -> sum (map f l) = k0.
Proof. intros H. induction l as [|x l IH]; cbn; [reflexivity|]. rewrite H by now left. rewrite IH by (intros; apply H; now right). ring. Qed.
Lemma sum_prod (l : list Z) (l' : list Z) (f : coord -> K) :
  sum (map f (list_prod l l')) = sum (map (fun x => sum (map (fun y => f (x, y)) l')) l).
Proof.
  induction l as [|x l IH]; [reflexivity|]. change (list_prod (x :: l) l') with (map (fun y => (x, y)) l' ++ list_prod l l').
  unfold coord in *. rewrite map_app, sum_app, IH, map_map. reflexivity.
Qed.

Lemma zrange_shift n : 0 < n -> Permutation (map (fun x => (x + 1) mod n) (zrange n)) (zrange n).
Proof.
  intros Hn. apply NoDup_Permutation.
  - apply NoDup_map_inj; [|apply NoDup_zrange]. intros a b Ha Hb E. apply In_zrange in Ha, Hb.
    pose proof (Z.mod_small a n). pose proof (Z.mod_small b n).
    assert (a mod n = b mod n); [|lia].
    replace a with ((a + 1) - 1) by lia. replace b with ((b + 1) - 1) by lia. rewrite Zminus_mod, E, <- Zminus_mod. reflexivity.
  - apply NoDup_zrange.
  - intros x. rewrite in_map_iff. split.
    + intros (a & <- & Ha). apply In_zrange. apply Z.mod_pos_bound. lia.
    + intros Hx. apply In_zrange in Hx. exists ((x - 1) mod n). split.
      * rewrite Zplus_mod_idemp_l. replace (x - 1 + 1) with x by lia. apply Z.mod_small. lia.
      * apply In_zrange. apply Z.mod_pos_bound. lia.
Qed.
Lemma sum_shift n (f : Z -> K) : 0 < n -> (forall x, f (x mod n) = f x) -> sum (map (fun x => f (x + 1)) (zrange n)) = sum (map f (zrange n)).
Proof.
  intros Hn Hf. rewrite <- (sum_perm _ _ (Permutation_map f (zrange_shift n Hn))). rewrite map_map. apply sum_map_ext. intros x _. symmetry. apply Hf.
Qed.

Section LM.
Variables (L M : Z) (d : nat).
Hypothesis (HL : 2 <= L) (HM : 2 <= M).
Notation sites := (sites L M).
Notation wrap := (wrap L M).
Notation config := PlaqSpec.config.
Definition per (f : coord -> K) : Prop := forall x y, f (x mod L, y) = f (x, y) /\ f (x, y mod M) = f (x, y).
Lemma sum_px f : per f -> sum (map (fun p => f (px p)) sites) = sum (map f sites).
Proof.
  intros Hf. unfold sites. rewrite !sum_prod. cbn [px fst snd].
  apply (sum_shift L (fun x => sum (map (fun y => f (x, y)) (zrange M)))); [lia|]. intros x. apply sum_map_ext. intros y _. apply (Hf x y).
Qed.
Lemma sum_py f : per f -> sum (map (fun p => f (py p)) sites) = sum (map f sites).
Proof.
  intros Hf. unfold sites. rewrite !sum_prod. cbn [py fst snd]. apply sum_map_ext. intros x _.
  apply (sum_shift M (fun y => f (x, y))); [lia|]. intros y. apply (Hf x y).
Qed.
Lemma per_py f : per f -> per (fun p => f (py p)).
Proof.
  intros Hf x y. unfold py. cbn [fst snd]. split; [apply (Hf x (y + 1))|].
  destruct (Hf x (y mod M + 1)) as [_ H1]. destruct (Hf x (y + 1)) as [_ H2]. rewrite <- H1, <- H2. now rewrite Zplus_mod_idemp_l.
Qed.
Lemma per_px f : per f -> per (fun p => f (px p)).
Proof.
  intros Hf x y. unfold px. cbn [fst snd]. split; [|apply (Hf (x + 1) y)].
  destruct (Hf (x mod L + 1) y) as [H1 _]. destruct (Hf (x + 1) y) as [H2 _]. rewrite <- H1, <- H2. now rewrite Zplus_mod_idemp_l.
Qed.
Lemma sum_pxy f : per f -> sum (map (fun p => f (pxy p)) sites) = sum (map f sites).
Proof. intros Hf. rewrite <- (sum_px f Hf). rewrite <- (sum_py (fun p => f (px p)) (per_px f Hf)). reflexivity. Qed.

(** ** placement *)
Lemma In_sites p : In p sites <-> 0 <= fst p < L /\ 0 <= snd p < M.
Proof. destruct p as [x y]. unfold PlaqSpec.sites, coord. rewrite in_prod_iff, !In_zrange. reflexivity. Qed.
Lemma wrap_sites p : In (wrap p) sites.
Proof. apply In_sites. unfold wrap. cbn. split; apply Z.mod_pos_bound; lia. Qed.
Lemma agree_off_spec ps (s s' : config) : agree_off L M ps s s' = true <-> forall p, In p sites -> ~ In p ps -> s p = s' p.
Proof.
  unfold agree_off. rewrite forallb_forall. split; intros H p Hp.
  - intros Hn. specialize (H p Hp). apply orb_true_iff in H. destruct H as [H|H]; [|now apply Nat.eqb_eq].
    apply existsb_exists in H. destruct H as (q & Hq & E). apply (eqb_true (A:=coord)) in E. subst q. contradiction.
  - apply orb_true_iff. destruct (existsb (eqb p) ps) eqn:E; [now left | right]. apply Nat.eqb_eq, H; [exact Hp|].
    intros Hi. assert (existsb (eqb p) ps = true); [|congruence]. apply existsb_exists. exists p. split; [exact Hi | now apply (eqb_true (A:=coord))].
Qed.
Definition pick {A} (dflt : A) (us : list nat) (l : list A) : list A := map (fun u => nth u l dflt) us.
Definition others_agree (us : list nat) (i a : list nat) : bool :=
  forallb (fun k => existsb (Nat.eqb k) us || Nat.eqb (nth k i 0%nat) (nth k a 0%nat)) (seq 0 (length i)).
Notation c0 := (0, 0)%Z.
Lemma on_pick (ps : list coord) us (O : local) (O' : local) (s s' : config) : NoDup (map wrap ps) -> (forall u, In u us -> (u < length ps)%nat) ->
  valid d s -> valid d s' ->
  (forall i a, length i = length ps -> length a = length ps -> Forall (fun x => (x < d)%nat) i -> Forall (fun x => (x < d)%nat) a ->
     O' i a = if others_agree us i a then O (pick 0%nat us i) (pick 0%nat us a) else k0) ->
  on k0 L M ps O' s s' = on k0 L M (pick c0 us ps) O s s'.
Proof.
  intros HN Hu Hs Hs' HO. unfold on. set (i := map (fun p => s (wrap p)) ps). set (a := map (fun p => s' (wrap p)) ps).
  assert (PI : forall (t : config), map (fun p => t (wrap p)) (pick c0 us ps) = pick 0%nat us (map (fun p => t (wrap p)) ps)).
  { intros t. unfold pick. rewrite map_map. apply map_ext_in. intros u Hin. symmetry.
    rewrite nth_indep with (d' := t (wrap c0)) by (rewrite map_length; auto). now rewrite (map_nth (fun p => t (wrap p))). }
  rewrite !PI. fold i a.
  assert (AG : agree_off L M (map wrap (pick c0 us ps)) s s' = agree_off L M (map wrap ps) s s' && others_agree us i a).
  { apply Bool.eq_true_iff_eq. rewrite andb_true_iff, !agree_off_spec.
    assert (OA : others_agree us i a = true <-> forall k, (k < length ps)%nat -> ~ In k us -> s (wrap (nth k ps c0)) = s' (wrap (nth k ps c0))).
    { unfold others_agree. rewrite forallb_forall. unfold i at 1. rewrite map_length.
      assert (N : forall (t : config) k, (k < length ps)%nat -> nth k (map (fun p => t (wrap p)) ps) 0%nat = t (wrap (nth k ps c0))).
      { intros t k Hk. rewrite nth_indep with (d' := t (wrap c0)) by (rewrite map_length; auto). now rewrite (map_nth (fun p => t (wrap p))). }
      split; intros H k Hk.
      - intros Hn. specialize (H k). rewrite in_seq in H. specialize (H ltac:(lia)). apply orb_true_iff in H. destruct H as [H|H].
        + apply existsb_exists in H. destruct H as (u & Hin & E). apply Nat.eqb_eq in E. subst u. contradiction.
        + apply Nat.eqb_eq in H. unfold i, a in H. rewrite !N in H by assumption. exact H.
      - apply in_seq in Hk. apply orb_true_iff. destruct (existsb (Nat.eqb k) us) eqn:E; [now left | right]. apply Nat.eqb_eq. unfold i, a.
        rewrite !N by lia. apply H; [lia|]. intros Hi. assert (existsb (Nat.eqb k) us = true); [|congruence]. apply existsb_exists. exists k.
        split; [exact Hi | apply Nat.eqb_refl]. }
    rewrite OA. split.
    - intros H. split.
      + intros p Hp Hn. apply H; [exact Hp|]. intros Hi. apply Hn. apply in_map_iff in Hi. destruct Hi as (q & <- & Hq). apply in_map.
        unfold pick in Hq. apply in_map_iff in Hq. destruct Hq as (u & <- & Hin). apply nth_In. auto.
      + intros k Hk Hn. apply H; [apply wrap_sites|]. intros Hi. apply in_map_iff in Hi. destruct Hi as (q & E & Hq).
        unfold pick in Hq. apply in_map_iff in Hq. destruct Hq as (u & <- & Hin). apply Hn.
        replace k with u; [exact Hin|]. pose proof (proj1 (NoDup_nth (map wrap ps) (wrap c0)) HN u k) as Q. rewrite map_length in Q.
        specialize (Q (Hu u Hin) Hk). rewrite !(map_nth wrap) in Q. auto.
    - intros [H1 H2] p Hp Hn. destruct (in_dec (fun a b : coord => eq_dec a b) p (map wrap ps)) as [Hi|Hi]; [|now apply H1].
      apply in_map_iff in Hi. destruct Hi as (q & <- & Hq). apply (In_nth _ _ c0) in Hq. destruct Hq as (k & Hk & <-). apply H2; [exact Hk|].
      intros Hin. apply Hn. apply in_map. unfold pick. apply in_map_iff. exists k. auto. }
  rewrite AG. destruct (agree_off L M (map wrap ps) s s'); [|reflexivity]. cbn [andb]. apply HO.
  - apply map_length.
  - apply map_length.
  - apply Forall_forall. intros x Hx. apply in_map_iff in Hx. destruct Hx as (p & <- & _). apply Hs.
  - apply Forall_forall. intros x Hx. apply in_map_iff in Hx. destruct Hx as (p & <- & _). apply Hs'.
Qed.
Lemma on_wrap ps ps' (O : local) (s s' : config) : map wrap ps = map wrap ps' -> on k0 L M ps O s s' = on k0 L M ps' O s s'.
Proof.
  intros E. unfold on. rewrite E.
  assert (Q : forall t : config, map (fun p => t (wrap p)) ps = map (fun p => t (wrap p)) ps') by (intros t; rewrite <- !(map_map wrap t); now rewrite E).
  now rewrite !Q.
Qed.
Lemma wrap_mod_x x y : wrap (x mod L, y) = wrap (x, y).
Proof. unfold wrap. cbn. now rewrite Zmod_mod. Qed.
Lemma wrap_mod_y x y : wrap (x, y mod M) = wrap (x, y).
Proof. unfold wrap. cbn. now rewrite Zmod_mod. Qed.
Lemma wrap_add p v : wrap (cadd (wrap p) v) = wrap (cadd p v).
Proof. unfold wrap, cadd. cbn. now rewrite !Zplus_mod_idemp_l. Qed.
Lemma wrap_eq_add p q v : wrap p = wrap q -> wrap (cadd p v) = wrap (cadd q v).
Proof. intros E. rewrite <- (wrap_add p), <- (wrap_add q). now rewrite E. Qed.
(** a family of operators placed relative to [p] is periodic in [p] *)
Lemma per_on vs (O : local) (s s' : config) : per (fun p => on k0 L M (map (cadd p) vs) O s s').
Proof.
  intros x y. split; apply on_wrap; rewrite !map_map; apply map_ext; intros v; apply wrap_eq_add; [apply wrap_mod_x | apply wrap_mod_y].
Qed.
Lemma mod_neq n a b : 2 <= n -> (a - b = 1 \/ a - b = -1) -> a mod n <> b mod n.
Proof.
  intros Hn Hab E. assert (Q : (a - b) mod n = 0) by (rewrite Zminus_mod, E, Z.sub_diag; apply Z.mod_0_l; lia).
  destruct Hab as [H|H]; rewrite H in Q.
  - rewrite Z.mod_small in Q by lia. lia.
  - replace (-1) with (n - 1 + (-1) * n) in Q by lia. rewrite Z_mod_plus_full, Z.mod_small in Q by lia. lia.
Qed.
Lemma plaq_nodup p : NoDup (map wrap (plaquette p)).
Proof.
  destruct p as [x y]. unfold plaquette, px, py, pxy, wrap. cbn [map fst snd].
  pose proof (mod_neq L x (x + 1) HL ltac:(lia)). pose proof (mod_neq M y (y + 1) HM ltac:(lia)).
  repeat constructor; cbn; intros Hc; repeat match goal with H : _ \/ _ |- _ => destruct H as [H|H] end;
    try match goal with H : (_, _) = (_, _) |- _ => injection H end; try congruence; tauto.
Qed.
Lemma on_swap (t : tensor K) p q (s s' : config) : symmetric2 k0 d t -> valid d s -> valid d s' ->
  on k0 L M [p; q] (loc2 k0 t) s s' = on k0 L M [q; p] (loc2 k0 t) s s'.
Proof.
  intros Ht Hs Hs'. unfold on. cbn [map].
  assert (A : agree_off L M [wrap p; wrap q] s s' = agree_off L M [wrap q; wrap p] s s').
  { apply Bool.eq_true_iff_eq. rewrite !agree_off_spec. split; intros H r Hr Hn; apply H; auto; cbn in *; tauto. }
  rewrite A. destruct (agree_off L M [wrap q; wrap p] s s'); [|reflexivity]. apply Ht; auto.
Qed.
End LM.
End Torus.
