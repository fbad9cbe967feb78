(** Elements of the plaquette tensors. *)
From Coq Require Import Lia Ring Permutation.
From Verif Require Import Base BaseLemmas Tensor TensorLemmas Plaq PlaqSpec PlaqProofs.
Open Scope list_scope.
Open Scope nat_scope.

Section El.
Context {K : Type} (k0 k1 : K) (kadd kmul ksub : K -> K -> K) (kopp : K -> K).
Hypothesis Kr : ring_theory k0 k1 kadd kmul ksub kopp (@eq K).
Add Ring Kring2 : Kr.
Variable d : nat.
Notation D8 := (D8 d).
Notation loc2 := (loc2 k0).
Notation loc1 := (loc1 k0).
Notation loc4 := (loc4 k0).
Notation tadd := (tadd kadd).
Notation tsub := (tsub ksub).
Notation tscl := (tscl kmul).
Notation perm := (perm k0).

Definition good (t : tensor K) : Prop := twf t /\ tdims t = D8.
Definition ok4 (i : list nat) : Prop := length i = 4 /\ Forall (fun x => x < d) i.
Lemma ok4_inv i : ok4 i -> exists a b c e, i = [a; b; c; e] /\ a < d /\ b < d /\ c < d /\ e < d.
Proof.
  intros [Hl HF]. destruct i as [|a [|b [|c [|e [|]]]]]; try discriminate. exists a, b, c, e.
  inversion HF as [|? ? Ha H1]; subst. inversion H1 as [|? ? Hb H2]; subst. inversion H2 as [|? ? Hc H3]; subst. inversion H3; subst. auto.
Qed.
Lemma range8 i a : ok4 i -> ok4 a -> in_range D8 (i ++ a).
Proof.
  intros Hi Ha. apply ok4_inv in Hi, Ha. destruct Hi as (i0 & i1 & i2 & i3 & -> & ? & ? & ? & ?). destruct Ha as (a0 & a1 & a2 & a3 & -> & ? & ? & ? & ?).
  unfold Plaq.D8. cbn [app]. repeat (apply Forall2_cons; [assumption|]). constructor.
Qed.
Lemma good_tzip f a b : good a -> good b -> good (tzip f a b).
Proof.
  intros [Ha Da] [Hb Db]. split; [|exact Da]. unfold twf in *. cbn [tzip tdims tdata]. rewrite map_length, combine_length, Ha, Hb, Da, Db. apply Nat.min_id.
Qed.
Lemma good_tscl c t : good t -> good (tscl c t).
Proof. intros [H D]. split; [now apply twf_tmap | exact D]. Qed.
Lemma good_build f : good (tbuild D8 f).
Proof. split; [apply twf_tbuild | reflexivity]. Qed.
Lemma tget_tzip (f : K -> K -> K) a b ix : twf a -> twf b -> tdims a = tdims b ->
  tget (tzip f a b) ix = match tget a ix, tget b ix with Some x, Some y => Some (f x y) | _, _ => None end.
Proof.
  intros Ha Hb Hd. unfold tget, telts, tzip. cbn [tdims tdata]. rewrite <- Hd.
  assert (Hl : length (tdata a) = length (tdata b)) by (unfold twf in *; congruence).
  assert (Hi : length (indices (tdims a)) = length (tdata a)) by (rewrite length_indices; unfold twf in Ha; congruence).
  revert Hl Hi. generalize (tdata a) (tdata b) (indices (tdims a)). clear. intros la lb li. revert la lb.
  induction li as [|i li IH]; intros [|x la] [|y lb]; cbn [length]; intros Hl Hi; try discriminate; [reflexivity|].
  cbn [combine map dget fst snd]. destruct (eq_dec ix i); [reflexivity|]. apply IH; congruence.
Qed.
Lemma loc4_zip f a b i x : good a -> good b -> ok4 i -> ok4 x -> loc4 (tzip f a b) i x = f (loc4 a i x) (loc4 b i x).
Proof.
  intros [Ha Da] [Hb Db] Hi Hx. unfold PlaqSpec.loc4. rewrite tget_tzip by congruence.
  pose proof (range8 i x Hi Hx) as R. destruct (tget_Some a (i ++ x) Ha) as [v ->]; [now rewrite Da|]. destruct (tget_Some b (i ++ x) Hb) as [w ->]; [now rewrite Db|]. reflexivity.
Qed.
Lemma loc4_add a b i x : good a -> good b -> ok4 i -> ok4 x -> loc4 (tadd a b) i x = kadd (loc4 a i x) (loc4 b i x).
Proof. apply loc4_zip. Qed.
Lemma loc4_sub a b i x : good a -> good b -> ok4 i -> ok4 x -> loc4 (tsub a b) i x = ksub (loc4 a i x) (loc4 b i x).
Proof. apply loc4_zip. Qed.
Lemma loc4_scl c t i x : good t -> ok4 i -> ok4 x -> loc4 (tscl c t) i x = kmul c (loc4 t i x).
Proof.
  intros [Ht Dt] Hi Hx. unfold PlaqSpec.loc4, Plaq.tscl. rewrite tget_tmap. destruct (tget_Some t (i ++ x) Ht) as [v ->]; [rewrite Dt; now apply range8|]. reflexivity.
Qed.
Lemma perm_ok t p : good t -> is_permb p 8 = true -> exists t', perm t p = Ok t' /\ good t' /\
  forall ix, in_range D8 ix -> Plaq.el k0 t' ix = Plaq.el k0 t (unperm p ix).
Proof.
  intros [Ht Dt] Hp. unfold Plaq.perm, tpermute. rewrite Dt. change (length D8) with 8. rewrite Hp. eexists. split; [reflexivity|].
  assert (Hl : length p = 8) by (unfold is_permb in Hp; apply andb_prop in Hp; destruct Hp as [Hp _]; now apply Nat.eqb_eq).
  assert (E : map (fun k => nth k D8 0) p = D8).
  { assert (HF : Forall (fun k => k < 8) p).
    { apply is_permb_spec in Hp. apply Forall_forall. intros k Hk. apply (Permutation_in _ Hp) in Hk. apply in_seq in Hk. lia. }
    destruct p as [|p0 [|p1 [|p2 [|p3 [|p4 [|p5 [|p6 [|p7 [|]]]]]]]]]; try discriminate. cbn [map].
    assert (Q : forall k, k < 8 -> nth k D8 0 = d) by (intros k Hk; do 8 (destruct k as [|k]; [reflexivity|]); lia).
    repeat match goal with H : Forall _ (_ :: _) |- _ => inversion H; clear H; subst end. rewrite !Q by assumption. reflexivity. }
  split.
  - split; [apply twf_tbuild | exact E].
  - intros ix Hr. unfold Plaq.el at 1. rewrite tget_tbuild by (now rewrite E). reflexivity.
Qed.

(** [t] is the local operator [O] on the plaquette sites [us] *)
Definition emb (us : list nat) (O : local) (t : tensor K) : Prop :=
  forall i x, ok4 i -> ok4 x -> loc4 t i x = if others_agree us i x then O (pick 0 us i) (pick 0 us x) else k0.
Lemma eqb_list2 a b c e : eqb [a; b] [c; e] = Nat.eqb a c && Nat.eqb b e.
Proof.
  apply Bool.eq_true_iff_eq. rewrite andb_true_iff, !Nat.eqb_eq, eqb_true. split; [intros H; injection H; auto | intros [-> ->]; reflexivity].
Qed.
Lemma eqb_list3 a b c a' b' c' : eqb [a; b; c] [a'; b'; c'] = Nat.eqb a a' && Nat.eqb b b' && Nat.eqb c c'.
Proof.
  apply Bool.eq_true_iff_eq. rewrite !andb_true_iff, !Nat.eqb_eq, eqb_true. split; [intros H; injection H; auto | intros [[-> ->] ->]; reflexivity].
Qed.
Lemma el_id2 k l c e : k < d -> l < d -> c < d -> e < d -> Plaq.el k0 (id_n k0 k1 d 2) [k; l; c; e] = if Nat.eqb k c && Nat.eqb l e then k1 else k0.
Proof.
  intros. unfold Plaq.el, id_n. rewrite tget_tbuild; [cbn [firstn skipn]; now rewrite eqb_list2|].
  cbn [repeat Nat.mul Nat.add]. repeat (apply Forall2_cons; [assumption|]). constructor.
Qed.
Lemma el_id3 j k l b c e : j < d -> k < d -> l < d -> b < d -> c < d -> e < d ->
  Plaq.el k0 (id_n k0 k1 d 3) [j; k; l; b; c; e] = if Nat.eqb j b && Nat.eqb k c && Nat.eqb l e then k1 else k0.
Proof.
  intros. unfold Plaq.el, id_n. rewrite tget_tbuild; [cbn [firstn skipn]; now rewrite eqb_list3|].
  cbn [repeat Nat.mul Nat.add]. repeat (apply Forall2_cons; [assumption|]). constructor.
Qed.
Lemma loc4_el t i x : loc4 t i x = Plaq.el k0 t (i ++ x).
Proof. reflexivity. Qed.
Lemma el_build f ix : in_range D8 ix -> Plaq.el k0 (tbuild D8 f) ix = f ix.
Proof. intros H. unfold Plaq.el. now rewrite tget_tbuild. Qed.
Ltac rng := unfold Plaq.D8; repeat (apply Forall2_cons; [assumption|]); constructor.
Ltac beqs := repeat match goal with |- context [Nat.eqb ?a ?b] => destruct (Nat.eqb a b) end.
Lemma perm_build (f : list nat -> K) p : is_permb p 8 = true -> exists t, perm (tbuild D8 f) p = Ok t /\ good t /\
  forall i x, ok4 i -> ok4 x -> loc4 t i x = f (unperm p (i ++ x)).
Proof.
  intros Hp. destruct (perm_ok _ p (good_build f) Hp) as (t & E & G & H). exists t. split; [exact E|]. split; [exact G|].
  intros i x Hi Hx. rewrite loc4_el, H by (now apply range8). rewrite el_build; [reflexivity|].
  pose proof (range8 i x Hi Hx) as R. 
  assert (Hlp : length p = 8) by (unfold is_permb in Hp; apply andb_prop in Hp; destruct Hp as [Hq _]; now apply Nat.eqb_eq).
  apply is_permb_spec in Hp.
  assert (Q8 : forall k, k < 8 -> nth k D8 0 = d) by (intros k' Hk'; do 8 (destruct k' as [|k']; [reflexivity|]); lia).
  assert (Q : forall k, k < 8 -> nth (pos k p) (i ++ x) 0 < d).
  { intros k Hk. 
    assert (Hpos : pos k p < 8).
    { assert (Hin : In k p) by (apply (Permutation_in _ (Permutation_sym Hp)); apply in_seq; lia).
      rewrite <- Hlp. clear - Hin. revert Hin. induction p as [|a p IH]; cbn; [intros []|]. intros Hin.
      destruct (Nat.eqb_spec a k); [lia|]. destruct Hin as [-> |Hin]; [congruence|]. specialize (IH Hin). lia. }
    apply in_range_nth in R. destruct R as [_ R]. specialize (R (pos k p) Hpos). now rewrite Q8 in R. }
  unfold unperm. rewrite Hlp. unfold Plaq.D8. cbn [seq map nth]. repeat (apply Forall2_cons; [apply Q; lia|]). constructor.
Qed.
(** the operators on single bonds and sites *)
Ltac locpick := intros i x Hi Hx; match goal with H : forall i x, _ -> _ -> loc4 _ i x = _ |- _ => rewrite (H i x Hi Hx) end;
  apply ok4_inv in Hi, Hx; destruct Hi as (i0 & i1 & i2 & i3 & -> & ? & ? & ? & ?), Hx as (x0 & x1 & x2 & x3 & -> & ? & ? & ? & ?);
  cbn -[Plaq.el id_n PlaqSpec.loc1 PlaqSpec.loc2]; rewrite ?el_id2, ?el_id3 by assumption; cbn [PlaqSpec.loc1 PlaqSpec.loc2]; unfold Plaq.el; beqs; cbn [andb orb]; ring.
Definition pair_perm (p us : list nat) : Prop := In (p, us)
  [([0; 1; 2; 3; 4; 5; 6; 7], [0; 1]); ([0; 2; 1; 3; 4; 6; 5; 7], [0; 2]); ([2; 3; 0; 1; 6; 7; 4; 5], [2; 3]);
   ([3; 1; 2; 0; 7; 5; 6; 4], [3; 1]); ([0; 3; 2; 1; 4; 7; 6; 5], [0; 3]); ([2; 1; 0; 3; 6; 5; 4; 7], [2; 1]);
   ([2; 0; 3; 1; 6; 4; 7; 5], [1; 3])].
Lemma emb_pair (A : tensor K) p us : pair_perm p us ->
  exists t, perm (two_two k0 kmul d A (id_n k0 k1 d 2)) p = Ok t /\ good t /\ emb us (loc2 A) t.
Proof.
  intros Hp.
  destruct (perm_build (fun ix => match ix with [i; j; k; l; a; b; c; e] => kmul (Plaq.el k0 A [i; j; a; b]) (Plaq.el k0 (id_n k0 k1 d 2) [k; l; c; e]) | _ => k0 end) p) as (t & E & G & H).
  { repeat (destruct Hp as [Hp|Hp]; [injection Hp; intros <- <-; reflexivity|]). destruct Hp. }
  exists t. split; [exact E|]. split; [exact G|]. clear E G.
  repeat (destruct Hp as [Hp|Hp]; [injection Hp; intros <- <-; clear Hp; locpick|]). destruct Hp.
Qed.
Definition site_perm (p us : list nat) : Prop := In (p, us)
  [([0; 1; 2; 3; 4; 5; 6; 7], [0]); ([3; 0; 1; 2; 7; 4; 5; 6], [1]); ([2; 3; 0; 1; 6; 7; 4; 5], [2]); ([1; 2; 3; 0; 5; 6; 7; 4], [3])].
Lemma emb_site (A : tensor K) p us : site_perm p us ->
  exists t, perm (one_three k0 kmul d A (id_n k0 k1 d 3)) p = Ok t /\ good t /\ emb us (loc1 A) t.
Proof.
  intros Hp.
  destruct (perm_build (fun ix => match ix with [i; j; k; l; a; b; c; e] => kmul (Plaq.el k0 A [i; a]) (Plaq.el k0 (id_n k0 k1 d 3) [j; k; l; b; c; e]) | _ => k0 end) p) as (t & E & G & H).
  { repeat (destruct Hp as [Hp|Hp]; [injection Hp; intros <- <-; reflexivity|]). destruct Hp. }
  exists t. split; [exact E|]. split; [exact G|]. clear E G.
  repeat (destruct Hp as [Hp|Hp]; [injection Hp; intros <- <-; clear Hp; locpick|]). destruct Hp.
Qed.
Definition quad_perm (p us : list nat) : Prop := In (p, us)
  [([0; 1; 2; 3; 4; 5; 6; 7], [0; 1; 2; 3]); ([0; 2; 1; 3; 4; 6; 5; 7], [0; 2; 1; 3])].
Lemma emb_quad (A : tensor K) p us : quad_perm p us ->
  exists t, perm (two_two k0 kmul d A A) p = Ok t /\ good t /\ emb us (prod22 k0 kmul A A) t.
Proof.
  intros Hp.
  destruct (perm_build (fun ix => match ix with [i; j; k; l; a; b; c; e] => kmul (Plaq.el k0 A [i; j; a; b]) (Plaq.el k0 A [k; l; c; e]) | _ => k0 end) p) as (t & E & G & H).
  { repeat (destruct Hp as [Hp|Hp]; [injection Hp; intros <- <-; reflexivity|]). destruct Hp. }
  exists t. split; [exact E|]. split; [exact G|]. clear E G.
  repeat (destruct Hp as [Hp|Hp]; [injection Hp; intros <- <-; clear Hp; intros i x Hi Hx; rewrite (H i x Hi Hx); apply ok4_inv in Hi, Hx; destruct Hi as (i0 & i1 & i2 & i3 & -> & ? & ? & ? & ?), Hx as (x0 & x1 & x2 & x3 & -> & ? & ? & ? & ?); reflexivity|]). destruct Hp.
Qed.
(** without a permutation *)
Lemma unperm_id ix : length ix = 8 -> unperm [0; 1; 2; 3; 4; 5; 6; 7] ix = ix.
Proof. destruct ix as [|? [|? [|? [|? [|? [|? [|? [|? [|]]]]]]]]]; try discriminate. reflexivity. Qed.
Lemma id_perm (f : list nat -> K) t us O : perm (tbuild D8 f) [0; 1; 2; 3; 4; 5; 6; 7] = Ok t -> emb us O t -> emb us O (tbuild D8 f).
Proof.
  intros E H i x Hi Hx. rewrite <- (H i x Hi Hx). destruct (perm_ok (tbuild D8 f) [0; 1; 2; 3; 4; 5; 6; 7] (good_build f) eq_refl) as (t' & E' & _ & H').
  rewrite E in E'. inv E'. rewrite !loc4_el, H' by (now apply range8). rewrite unperm_id; [reflexivity|].
  pose proof (range8 i x Hi Hx) as R. apply in_range_length in R. rewrite R. reflexivity.
Qed.
Lemma emb_pair0 (A : tensor K) : emb [0; 1] (loc2 A) (two_two k0 kmul d A (id_n k0 k1 d 2)).
Proof. destruct (emb_pair A [0; 1; 2; 3; 4; 5; 6; 7] [0; 1]) as (t & E & _ & H); [now left|]. exact (id_perm _ t _ _ E H). Qed.
Lemma emb_site0 (A : tensor K) : emb [0] (loc1 A) (one_three k0 kmul d A (id_n k0 k1 d 3)).
Proof. destruct (emb_site A [0; 1; 2; 3; 4; 5; 6; 7] [0]) as (t & E & _ & H); [now left|]. exact (id_perm _ t _ _ E H). Qed.
Lemma emb_quad0 (A : tensor K) : emb [0; 1; 2; 3] (prod22 k0 kmul A A) (two_two k0 kmul d A A).
Proof. destruct (emb_quad A [0; 1; 2; 3; 4; 5; 6; 7] [0; 1; 2; 3]) as (t & E & _ & H); [now left|]. exact (id_perm _ t _ _ E H). Qed.
(** einsum('ia,jb,kc,ld->ijklabcd',Sx,Id,Id,Id) *)
Lemma emb_four (A Id : tensor K) : (forall i a, i < d -> a < d -> Plaq.el k0 Id [i; a] = if Nat.eqb i a then k1 else k0) ->
  emb [0] (loc1 A) (four_ones k0 kmul d A Id Id Id).
Proof.
  intros HI i x Hi Hx. unfold four_ones. rewrite loc4_el, el_build by (now apply range8).
  apply ok4_inv in Hi, Hx. destruct Hi as (i0 & i1 & i2 & i3 & -> & ? & ? & ? & ?), Hx as (x0 & x1 & x2 & x3 & -> & ? & ? & ? & ?).
  cbn -[Plaq.el PlaqSpec.loc1]. rewrite !HI by assumption. cbn [PlaqSpec.loc1]. unfold Plaq.el. beqs; cbn [andb orb]; ring.
Qed.
End El.
