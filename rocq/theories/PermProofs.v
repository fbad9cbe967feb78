From Verif Require Import Base BaseLemmas Tensor Perm PermSpec.
From Coq Require Import Permutation.
Open Scope list_scope.
Open Scope nat_scope.

(** ** inversions, recursively *)
Definition cnt (x : nat) (l : list nat) : nat := length (filter (fun y => y <? x) l).
Fixpoint inv_ (l : list nat) : nat := match l with [] => 0 | x :: l' => cnt x l' + inv_ l' end.

Lemma filter_map_len {A B} (g : A -> B) (p : B -> bool) (l : list A) : length (filter p (map g l)) = length (filter (fun a => p (g a)) l).
Proof. induction l as [|a l IH]; [reflexivity|]. cbn. destruct (p (g a)); cbn; now rewrite IH. Qed.
Lemma filter_len_ext {A} (p q : A -> bool) (l : list A) : (forall a, In a l -> p a = q a) -> length (filter p l) = length (filter q l).
Proof. intros H. induction l as [|a l IH]; [reflexivity|]. cbn. rewrite (H a (or_introl eq_refl)).
  assert (E : length (filter p l) = length (filter q l)) by (apply IH; intros; apply H; now right).
  destruct (q a); cbn; now rewrite E. Qed.

Definition inv2 (l : list nat) : nat :=
  list_sum (map (fun i => length (filter (fun j => (i <? j) && (nth j l 0 <? nth i l 0)) (seq 0 (length l)))) (seq 0 (length l))).
Lemma inversions_inv2 l : inversions l = inv2 l.
Proof. unfold inversions, inv2. generalize (seq 0 (length l)) at 1 4 as A. generalize (seq 0 (length l)) as B. intros B A.
  induction A as [|a A IH]; [reflexivity|]. cbn [list_prod map list_sum fold_right].
  rewrite filter_app, app_length, filter_map_len. cbn [fst snd]. unfold list_sum in IH. now rewrite IH. Qed.

Lemma cnt_nth x l : length (filter (fun j => nth j l 0 <? x) (seq 0 (length l))) = cnt x l.
Proof. unfold cnt. transitivity (length (filter (fun y => y <? x) (map (fun j => nth j l 0) (seq 0 (length l))))).
  - now rewrite filter_map_len.
  - f_equal. f_equal. clear. induction l as [|a l IH]; [reflexivity|]. cbn [length seq map nth].
    f_equal. rewrite <- seq_shift, map_map. exact IH. Qed.

Lemma inv2_inv l : inv2 l = inv_ l.
Proof. induction l as [|x l IH]; [reflexivity|]. unfold inv2. cbn [length seq map list_sum fold_right].
  rewrite <- seq_shift, map_map. cbn [inv_]. f_equal.
  - cbn [filter Nat.ltb Nat.leb andb]. rewrite filter_map_len. cbn [nth]. rewrite <- cnt_nth. now apply filter_len_ext.
  - rewrite <- IH. unfold inv2, list_sum. f_equal. apply map_ext. intros i. cbn [filter].
    change (S i <? 0) with false. cbn [andb]. rewrite filter_map_len. apply filter_len_ext. intros j _. reflexivity. Qed.

Lemma inversions_inv l : inversions l = inv_ l.
Proof. now rewrite inversions_inv2, inv2_inv. Qed.

(** ** sign *)
Definition sg (l : list nat) : bool := Nat.odd (inv_ l).

Lemma cnt_perm x l l' : Permutation l l' -> cnt x l = cnt x l'.
Proof. unfold cnt. induction 1 as [|a l l' H IH|a b l|l1 l2 l3 H1 IH1 H2 IH2]; cbn [filter]; [reflexivity| | |congruence].
  - destruct (a <? x); cbn [length]; congruence.
  - destruct (a <? x), (b <? x); reflexivity. Qed.

Lemma inv_app a l : inv_ (a ++ l) = inv_ a + list_sum (map (fun x => cnt x l) a) + inv_ l.
Proof. induction a as [|x a IH]; [reflexivity|]. cbn [app inv_ map list_sum fold_right].
  unfold list_sum in IH. rewrite IH. unfold cnt. rewrite filter_app, app_length. lia. Qed.

Lemma sum_perm a l l' : Permutation l l' -> list_sum (map (fun x => cnt x l) a) = list_sum (map (fun x => cnt x l') a).
Proof. intros H. f_equal. apply map_ext. intros x. now apply cnt_perm. Qed.

Lemma sg_adj a x y c : x <> y -> sg (a ++ x :: y :: c) = negb (sg (a ++ y :: x :: c)).
Proof. intros Hn. unfold sg. rewrite !inv_app. rewrite (sum_perm a (x :: y :: c) (y :: x :: c)) by apply perm_swap.
  generalize (inv_ a + list_sum (map (fun x0 => cnt x0 (y :: x :: c)) a)). intros K.
  cbn [inv_]. unfold cnt. cbn [filter]. set (u := length (filter (fun y0 => y0 <? x) c)). set (v := length (filter (fun y0 => y0 <? y) c)).
  assert (E : (y <? x) = negb (x <? y)).
  { destruct (x <? y) eqn:A; cbn; [apply Nat.ltb_ge; apply Nat.ltb_lt in A; lia|apply Nat.ltb_lt; apply Nat.ltb_ge in A; lia]. }
  rewrite E. destruct (x <? y); cbn [negb length]; fold u; fold v.
  - replace (K + (S v + (u + inv_ c))) with (S (K + (u + (v + inv_ c)))) by lia. rewrite Nat.odd_succ, <- Nat.negb_odd. now rewrite negb_involutive.
  - replace (K + (S u + (v + inv_ c))) with (S (K + (v + (u + inv_ c)))) by lia. now rewrite Nat.odd_succ, <- Nat.negb_odd. Qed.

(** moving x past b *)
Lemma sg_move a x b c : ~ In x b -> sg (a ++ x :: b ++ c) = xorb (Nat.odd (length b)) (sg (a ++ b ++ x :: c)).
Proof. revert a. induction b as [|y b IH]; intros a Hx; [cbn; now destruct (sg _)|].
  cbn [app]. rewrite sg_adj by (intros ->; apply Hx; now left).
  change (a ++ y :: x :: b ++ c) with (a ++ [y] ++ x :: b ++ c). rewrite app_assoc, IH by (intros H; apply Hx; now right).
  rewrite <- app_assoc. cbn [app length]. rewrite Nat.odd_succ, <- Nat.negb_odd.
  now destruct (Nat.odd (length b)), (sg (a ++ y :: b ++ x :: c)). Qed.

Lemma sg_swap a x b y c : x <> y -> ~ In x b -> ~ In y b -> sg (a ++ x :: b ++ y :: c) = negb (sg (a ++ y :: b ++ x :: c)).
Proof. intros Hn Hx Hy. rewrite (sg_move a x b (y :: c) Hx), (sg_move a y b (x :: c) Hy).
  rewrite !(app_assoc a b). rewrite sg_adj by exact Hn. now destruct (Nat.odd _), (sg _). Qed.

(** exchanging the values at two positions *)
Definition swap (l : list nat) (i j : nat) : list nat :=
  map (fun k => if k =? i then nth j l 0 else if k =? j then nth i l 0 else nth k l 0) (seq 0 (length l)).

Lemma length_swap l i j : length (swap l i j) = length l.
Proof. unfold swap. now rewrite map_length, seq_length. Qed.
Lemma nth_swap l i j k : k < length l -> nth k (swap l i j) 0 = if k =? i then nth j l 0 else if k =? j then nth i l 0 else nth k l 0.
Proof. intros H. unfold swap. set (f := fun k => _). rewrite (nth_indep _ 0 (f 0)) by (rewrite map_length, seq_length; exact H).
  rewrite map_nth. rewrite seq_nth by exact H. reflexivity. Qed.
Lemma swap_sym l i j : swap l i j = swap l j i.
Proof. unfold swap. apply map_ext. intros k. destruct (Nat.eqb_spec k i), (Nat.eqb_spec k j); congruence. Qed.

Lemma list_nth_ext (l l' : list nat) : length l = length l' -> (forall k, k < length l -> nth k l 0 = nth k l' 0) -> l = l'.
Proof. intros H1 H2. apply (nth_ext _ _ 0 0 H1). exact H2. Qed.

Lemma nth_app_l (a b : list nat) k : k < length a -> nth k (a ++ b) 0 = nth k a 0.
Proof. apply app_nth1. Qed.

Lemma swap_split a x b y c : swap (a ++ x :: b ++ y :: c) (length a) (length a + S (length b)) = a ++ y :: b ++ x :: c.
Proof. apply list_nth_ext; [rewrite length_swap, !app_length; cbn; rewrite !app_length; cbn; lia|].
  intros k Hk. rewrite length_swap in Hk. rewrite nth_swap by exact Hk.
  assert (G : forall u v w, nth (length a) (a ++ u :: b ++ v :: w) 0 = u).
  { intros. rewrite app_nth2, Nat.sub_diag by lia. reflexivity. }
  assert (G2 : forall u v w, nth (length a + S (length b)) (a ++ u :: b ++ v :: w) 0 = v).
  { intros. rewrite app_nth2 by lia. replace (length a + S (length b) - length a) with (S (length b)) by lia. cbn [nth].
    rewrite app_nth2, Nat.sub_diag by lia. reflexivity. }
  destruct (Nat.eqb_spec k (length a)) as [->|N1]; [now rewrite G, G2|].
  destruct (Nat.eqb_spec k (length a + S (length b))) as [->|N2]; [now rewrite G, G2|].
  destruct (Nat.lt_ge_cases k (length a)) as [L|L]; [now rewrite !app_nth1|].
  rewrite !app_nth2 by lia. destruct (k - length a) as [|m] eqn:E; [lia|]. cbn [nth].
  destruct (Nat.lt_ge_cases m (length b)) as [M|M]; [now rewrite !app_nth1|].
  rewrite !app_nth2 by lia. destruct (m - length b) as [|q] eqn:E2; [lia|]. reflexivity. Qed.

Lemma split_two (l : list nat) i j : i < j -> j < length l ->
  exists a b c, l = a ++ nth i l 0 :: b ++ nth j l 0 :: c /\ length a = i /\ length a + S (length b) = j.
Proof. intros Hij Hj. destruct (nth_split l 0 (n := i) ltac:(lia)) as (a & r & E & La).
  destruct (nth_split r 0 (n := j - S i)) as (b & c & Er & Lb).
  { apply (f_equal (@length nat)) in E. rewrite app_length in E. cbn in E. lia. }
  assert (N : nth (j - S i) r 0 = nth j l 0).
  { rewrite E at 1. rewrite app_nth2 by lia. replace (j - length a) with (S (j - S i)) by lia. reflexivity. }
  rewrite N in Er. exists a, b, c. split; [|split; lia]. rewrite <- Er. exact E. Qed.

Lemma sg_swap_pos l i j : NoDup l -> i < length l -> j < length l -> i <> j -> sg (swap l i j) = negb (sg l).
Proof. assert (W : forall i j, NoDup l -> j < length l -> i < j -> sg (swap l i j) = negb (sg l)).
  { intros i' j' Hd Hj Hij. destruct (split_two l i' j' Hij Hj) as (a & b & c & E & La & Lb).
    set (x := nth i' l 0) in *. set (y := nth j' l 0) in *. clearbody x y. subst l.
    assert (Hd2 : NoDup (x :: b ++ y :: c)).
    { clear - Hd. induction a as [|u a IH]; [exact Hd|]. apply IH. now inversion Hd. }
    inversion Hd2 as [|? ? Hx Hr]; subst. rewrite swap_split.
    rewrite (sg_swap a y b x c).
    - reflexivity.
    - intros ->. apply Hx. apply in_or_app. right. now left.
    - intros H. apply NoDup_remove_2 in Hr. apply Hr, in_or_app. now left.
    - intros H. apply Hx, in_or_app. now left. }
  intros Hd Hi Hj Hn. destruct (Nat.lt_total i j) as [H|[H|H]]; [now apply W|contradiction|].
  rewrite swap_sym. now apply W. Qed.

Lemma In_nth_pos (l : list nat) x : In x l -> exists k, k < length l /\ nth k l 0 = x.
Proof. intros H. destruct (In_nth l x 0 H) as (k & H1 & H2). now exists k. Qed.

Lemma swap_perm l i j : i < length l -> j < length l -> Permutation (swap l i j) l.
Proof. assert (W : forall i j, j < length l -> i < j -> Permutation (swap l i j) l).
  { intros i' j' Hj Hij. destruct (split_two l i' j' Hij Hj) as (a & b & c & E & La & Lb).
    set (x := nth i' l 0) in *. set (y := nth j' l 0) in *. clearbody x y. subst l i' j'. rewrite swap_split.
    apply Permutation_app_head. transitivity (x :: y :: b ++ c).
    - transitivity (y :: x :: b ++ c); [|apply perm_swap]. constructor. symmetry. apply Permutation_middle.
    - constructor. apply Permutation_middle. }
  intros Hi Hj. destruct (Nat.lt_total i j) as [H|[->|H]]; [now apply W| |rewrite swap_sym; now apply W].
  assert (E : swap l j j = l); [|now rewrite E]. apply list_nth_ext; [apply length_swap|]. intros k Hk. rewrite length_swap in Hk.
  rewrite nth_swap by exact Hk. destruct (Nat.eqb_spec k j); congruence. Qed.

(** ** sigma as a function *)
Lemma perm_facts sigma : is_permutation sigma -> NoDup sigma /\ (forall k, k < length sigma -> nth k sigma 0 < length sigma) /\
  (forall x, x < length sigma -> In x sigma).
Proof. intros H. split; [|split].
  - eapply Permutation_NoDup; [symmetry; exact H|apply seq_NoDup].
  - intros k Hk. assert (I : In (nth k sigma 0) (seq 0 (length sigma))) by (eapply Permutation_in; [exact H|apply nth_In; exact Hk]).
    apply in_seq in I. lia.
  - intros x Hx. eapply Permutation_in; [symmetry; exact H|]. apply in_seq. lia. Qed.

Lemma nth_inj sigma i j : NoDup sigma -> i < length sigma -> j < length sigma -> nth i sigma 0 = nth j sigma 0 -> i = j.
Proof. intros H Hi Hj E. exact (proj1 (NoDup_nth sigma 0) H i j Hi Hj E). Qed.

(** consecutive elements of [c] are mapped to each other, the last one to [e] *)
Fixpoint path (sigma c : list nat) (e : nat) : Prop :=
  match c with
  | [] => True
  | a :: c' => nth a sigma 0 = (match c' with [] => e | b :: _ => b end) /\ path sigma c' e
  end.

Lemma path_nth sigma c e : path sigma c e <-> forall i, i < length c -> nth (nth i c 0) sigma 0 = nth (S i) (c ++ [e]) 0.
Proof. induction c as [|a c IH]; cbn [path].
  - split; [intros _ i Hi; cbn in Hi; lia|trivial].
  - rewrite IH. split.
    + intros [H1 H2] [|i] Hi; [cbn; rewrite H1; now destruct c|]. cbn in Hi |- *. rewrite H2 by lia. reflexivity.
    + intros H. split; [specialize (H 0 ltac:(cbn; lia)); cbn in H; rewrite H; now destruct c|].
      intros i Hi. specialize (H (S i) ltac:(cbn; lia)). exact H. Qed.

Lemma path_snoc sigma c s e : path sigma (c ++ [s]) e <-> path sigma c s /\ nth s sigma 0 = e.
Proof. induction c as [|a c IH]; cbn [app path]; [tauto|]. rewrite IH. destruct c; cbn [app]; tauto. Qed.

Definition cyc (sigma c : list nat) : Prop := c <> [] /\ path sigma c (hd 0 c).

(** ** the sign of a permutation given by cycles *)
Definition flips (cl : list (list nat)) : nat := list_sum (map (fun c => length c - 1) cl).

Lemma sg_seq n : forall m, sg (seq m n) = false.
Proof. intros m. unfold sg. assert (E : inv_ (seq m n) = 0); [|now rewrite E]. revert m. induction n as [|n IH]; intros m; [reflexivity|].
  cbn [seq inv_]. rewrite IH. unfold cnt. assert (F : filter (fun y => y <? m) (seq (S m) n) = []); [|now rewrite F].
  assert (G : forall q k, m <= q -> filter (fun y => y <? m) (seq q k) = []).
  { intros q k; revert q. induction k as [|k IHk]; intros q Hq; [reflexivity|]. cbn [seq filter].
    rewrite (proj2 (Nat.ltb_ge q m)) by lia. apply IHk. lia. }
  apply G. lia. Qed.

Lemma path_ext sigma sigma' c e : (forall a, In a c -> nth a sigma 0 = nth a sigma' 0) -> path sigma c e -> path sigma' c e.
Proof. induction c as [|a c IH]; intros H; cbn [path]; [trivial|]. intros [H1 H2]. split; [rewrite <- (H a (or_introl eq_refl)); exact H1|].
  apply IH; [intros; apply H; now right|exact H2]. Qed.

Lemma sign_cycles m : forall sigma cl, length (concat cl) + length cl <= m -> is_permutation sigma -> NoDup (concat cl) ->
  (forall x, In x (concat cl) -> x < length sigma) ->
  Forall (cyc sigma) cl -> (forall k, k < length sigma -> ~ In k (concat cl) -> nth k sigma 0 = k) ->
  sg sigma = Nat.odd (flips cl).
Proof. induction m as [|m IH]; intros sigma cl Hm Hp Hd Hr Hc Hf.
  - destruct cl as [|c cl]; [|cbn in Hm; lia].
    assert (E : sigma = seq 0 (length sigma)).
    { apply list_nth_ext; [now rewrite seq_length|]. intros k Hk. rewrite seq_nth by exact Hk. now apply Hf. }
    rewrite E, sg_seq. reflexivity.
  - destruct cl as [|c cl]; [apply (IH sigma []); try assumption; cbn; lia|].
    inversion Hc as [|? ? [Hne Hpath] Hc']; subst. destruct c as [|a [|b c]]; [contradiction| |].
    + cbn [hd path] in Hpath. destruct Hpath as [Ha _]. cbn [concat app] in *.
      change (flips ([a] :: cl)) with (flips cl). inversion Hd; subst. apply (IH sigma cl); try assumption; [cbn in Hm; lia|intros; apply Hr; now right|].
      intros k Hk Hn. destruct (Nat.eq_dec k a) as [->|N]; [exact Ha|]. apply Hf; [exact Hk|]. intros [->|H]; [congruence|contradiction].
    + cbn [hd] in Hpath. cbn [concat app] in *.
      assert (La : a < length sigma) by (apply Hr; now left). assert (Lb : b < length sigma) by (apply Hr; right; now left).
      inversion Hd as [|? ? Na Hd1]; subst. inversion Hd1 as [|? ? Nb Hd2]; subst.
      assert (Nab : a <> b) by (intros ->; apply Na; now left).
      destruct (perm_facts sigma Hp) as (Pd & _ & _).
      pose proof (sg_swap_pos sigma a b Pd La Lb Nab) as Hs. apply (f_equal negb) in Hs. rewrite negb_involutive in Hs. rewrite <- Hs.
      destruct Hpath as [Hab Hpath2].
      assert (Sother : forall k, k < length sigma -> k <> a -> k <> b -> nth k (swap sigma a b) 0 = nth k sigma 0).
      { intros k Hk N1 N2. rewrite nth_swap by exact Hk. now rewrite (proj2 (Nat.eqb_neq k a)), (proj2 (Nat.eqb_neq k b)). }
      rewrite (IH (swap sigma a b) ((a :: c) :: cl)).
      * unfold flips. cbn [map list_sum fold_right length]. rewrite !Nat.sub_succ, !Nat.sub_0_r. cbn [plus]. rewrite Nat.odd_succ, <- Nat.negb_odd.
        reflexivity.
      * cbn [concat app length] in Hm |- *. rewrite app_length in *. cbn in *. lia.
      * unfold is_permutation. rewrite length_swap. etransitivity; [apply swap_perm; assumption|exact Hp].
      * cbn [concat app]. constructor; [intros H; apply Na; now right|exact Hd2].
      * rewrite length_swap. cbn [concat app]. intros x [->|H]; [exact La|apply Hr; right; now right].
      * constructor.
        -- split; [discriminate|]. cbn [hd path]. rewrite nth_swap by exact La. rewrite Nat.eqb_refl.
           cbn [path] in Hpath2. destruct Hpath2 as [Hb Hp2]. split; [exact Hb|].
           eapply path_ext; [|exact Hp2]. intros x Hx. symmetry. apply Sother.
           ++ apply Hr. right. right. apply in_or_app. now left.
           ++ intros ->. apply Na. right. apply in_or_app. now left.
           ++ intros ->. apply Nb. apply in_or_app. now left.
        -- apply Forall_forall. intros d Hdin. rewrite Forall_forall in Hc'. destruct (Hc' d Hdin) as [H1 H2]. split; [exact H1|].
           eapply path_ext; [|exact H2]. intros x Hx. symmetry.
           assert (Hxc : In x (concat cl)) by (apply in_concat; exists d; now split). apply Sother.
           ++ apply Hr. right. right. apply in_or_app. now right.
           ++ intros ->. apply Na. right. apply in_or_app. now right.
           ++ intros ->. apply Nb. apply in_or_app. now right.
      * rewrite length_swap. intros k Hk Hn. cbn [concat app] in Hn.
        assert (Nka : k <> a) by (intros ->; apply Hn; now left).
        rewrite nth_swap by exact Hk. rewrite (proj2 (Nat.eqb_neq k a)) by exact Nka.
        destruct (Nat.eqb_spec k b) as [->|Nkb]; [exact Hab|]. apply Hf; [exact Hk|].
        intros [->|[->|H]]; [congruence|congruence|]. apply Hn. now right. Qed.
