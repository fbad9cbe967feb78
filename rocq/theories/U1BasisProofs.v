(** Proofs about the C4v orbits. *)
From Coq Require Import Permutation.
From Verif Require Import Base BaseLemmas Tensor TensorLemmas C4vSpec C4vProofs U1Basis U1BasisSpec.
Open Scope list_scope.
Open Scope nat_scope.
Open Scope res_scope.

(** ** sets *)
Lemma existsb_In (x : list nat) s : existsb (eqb x) s = true <-> In x s.
Proof.
  rewrite existsb_exists. split; [intros (y & H & E)|intros H; exists x; split; [easy|]].
  - apply (@eqb_true (list nat)) in E. now subst.
  - now apply (@eqb_true (list nat)).
Qed.
Lemma In_set_add s x y : In y (set_add s x) <-> In y s \/ y = x.
Proof.
  unfold set_add. destruct (existsb (eqb x) s) eqn:E.
  - apply existsb_In in E. split; [now left|intros [H| ->]; easy].
  - rewrite in_app_iff. cbn. intuition.
Qed.
Lemma NoDup_set_add s x : NoDup s -> NoDup (set_add s x).
Proof.
  intros H. unfold set_add. destruct (existsb (eqb x) s) eqn:E; [easy|].
  apply (Permutation_NoDup (l := x :: s)); [apply Permutation_cons_append|]. constructor; [|easy].
  intros Hx. apply existsb_In in Hx. congruence.
Qed.
Lemma In_set_update s xs y : In y (set_update s xs) <-> In y s \/ In y xs.
Proof.
  unfold set_update. revert s; induction xs as [|x xs IH]; intros s; cbn; [tauto|]. rewrite IH, In_set_add. intuition.
Qed.
Lemma NoDup_set_update s xs : NoDup s -> NoDup (set_update s xs).
Proof. unfold set_update. revert s; induction xs as [|x xs IH]; intros s H; cbn; [easy|]. now apply IH, NoDup_set_add. Qed.
Lemma In_updates s xss y : In y (fold_left set_update xss s) <-> In y s \/ exists xs, In xs xss /\ In y xs.
Proof.
  revert s; induction xss as [|xs xss IH]; intros s; cbn; [split; [now left|intros [H|(? & [] & _)]; easy]|].
  rewrite IH, In_set_update. split.
  - intros [[H|H]|(ys & H & H')]; eauto.
  - intros [H|(ys & [->|H] & H')]; eauto.
Qed.
Lemma NoDup_updates s xss : NoDup s -> NoDup (fold_left set_update xss s).
Proof. revert s; induction xss as [|xs xss IH]; intros s H; cbn; [easy|]. now apply IH, NoDup_set_update. Qed.

(** ** the group *)
Lemma len4 {A} (x : list A) : length x = 4 -> exists a b c d, x = [a; b; c; d].
Proof. destruct x as [|a [|b [|c [|d [|]]]]]; try easy. intros _. now exists a, b, c, d. Qed.
Definition images (x : list nat) : list (list nat) :=
  match x with
  | [a; b; c; d] => [[a; b; c; d]; [b; c; d; a]; [c; d; a; b]; [d; a; b; c]; [a; d; c; b]; [b; a; d; c]; [c; b; a; d]; [d; c; b; a]]
  | _ => []
  end.
Lemma In_images x y : length x = 4 -> (In y (images x) <-> exists g, In g group /\ y = moved g x).
Proof.
  intros H. destruct (len4 x H) as (a & b & c & d & ->).
  transitivity (In y (map (fun g => moved g [a; b; c; d]) group)); [reflexivity|].
  rewrite in_map_iff. split; intros (g & H1 & H2); exists g; auto.
Qed.
Ltac ors H := cbn [images In] in H; decompose [or] H; clear H; try contradiction.
Lemma images_sym x y : length x = 4 -> In y (images x) -> length y = 4 /\ forall z, In z (images y) <-> In z (images x).
Proof.
  intros H Hy. destruct (len4 x H) as (a & b & c & d & ->). cbn [images In] in Hy.
  decompose [or] Hy; try contradiction; subst y; (split; [reflexivity|]); intros z; cbn [images In]; tauto.
Qed.
Lemma images_self x : length x = 4 -> In x (images x).
Proof. intros H. destruct (len4 x H) as (a & b & c & d & ->). now left. Qed.
Lemma images_max x y : length x = 4 -> In y (images x) -> list_max y = list_max x.
Proof.
  intros H Hy. destruct (len4 x H) as (a & b & c & d & ->). cbn [images In] in Hy.
  decompose [or] Hy; try contradiction; subst y; cbn; lia.
Qed.
Lemma images_perm x y : length x = 4 -> In y (images x) -> Permutation x y.
Proof.
  intros H Hy. destruct (len4 x H) as (a & b & c & d & ->). cbn [images In] in Hy.
  assert (P1 : forall p q r s : nat, Permutation [p; q; r; s] [q; r; s; p]) by (intros; apply (Permutation_app_comm [_] [_; _; _])).
  assert (P2 : forall p q r s : nat, Permutation [p; q; r; s] [r; q; p; s]).
  { intros p q r s. change [p; q; r; s] with ([p; q; r] ++ [s]). change [r; q; p; s] with ([r; q; p] ++ [s]). apply Permutation_app_tail.
    apply (Permutation_rev [p; q; r]). }
  decompose [or] Hy; try contradiction; subst y.
  - reflexivity.
  - apply P1.
  - now rewrite P1, P1.
  - now rewrite P1, P1, P1.
  - rewrite P2, P1, P1. reflexivity.
  - rewrite P2, P1. reflexivity.
  - apply P2.
  - rewrite P2, P1, P1, P1. reflexivity.
Qed.

Definition is_orbit (o : list (list nat)) (x : list nat) : Prop := forall y, In y o <-> In y (images x).

Lemma gen_A1_ok a b c d : exists s, gen_A1_ [a; b; c; d] = Ok s /\ NoDup s /\
  forall y, In y s <-> In y [[a; d; c; b]; [c; b; a; d]; [d; a; b; c]; [b; c; d; a]].
Proof.
  eexists. split; [reflexivity|]. split.
  - apply NoDup_set_update. constructor.
  - intros y. rewrite In_set_update. cbn [In]. tauto.
Qed.
Lemma gen_A1_spec p : length p = 4 -> exists s, gen_A1_ p = Ok s /\ NoDup s /\
  forall y, In y s <-> match p with [a; b; c; d] => In y [[a; d; c; b]; [c; b; a; d]; [d; a; b; c]; [b; c; d; a]] | _ => False end.
Proof. intros H. destruct (len4 p H) as (a & b & c & d & ->). apply gen_A1_ok. Qed.

Lemma orbit_ok x : length x = 4 -> exists o, gen_c4v_symm_A1 x = Ok o /\ NoDup o /\ is_orbit o x.
Proof.
  intros H. destruct (len4 x H) as (a & b & c & d & ->). unfold gen_c4v_symm_A1.
  destruct (gen_A1_ok a b c d) as (s & E & Hn & Hs). rewrite E. cbn [bind].
  destruct (existsb (eqb [a; b; c; d]) s) eqn:Ex; cbn [negb].
  - exists s. split; [easy|]. split; [easy|]. intros y. rewrite Hs.
    apply existsb_In in Ex. apply Hs in Ex. cbn [In] in Ex.
    assert (X : b = d \/ a = c) by (destruct Ex as [Ex|[Ex|[Ex|[Ex|[]]]]]; injection Ex; intros; subst; auto).
    cbn [images In]. destruct X as [->| ->]; tauto.
  - assert (Hm : exists more, mapM gen_A1_ s = Ok more /\ forall y, (exists xs, In xs more /\ In y xs) <->
        exists p, In p s /\ match p with [a; b; c; d] => In y [[a; d; c; b]; [c; b; a; d]; [d; a; b; c]; [b; c; d; a]] | _ => False end).
    { assert (Hl : Forall (fun p => length p = 4) s).
      { apply Forall_forall. intros p Hp. apply Hs in Hp. cbn [In] in Hp. decompose [or] Hp; try contradiction; now subst p. }
      clear -Hl. induction Hl as [|p s Hp Hl IH].
      - exists []. split; [easy|]. intros y. split; intros (? & [] & _).
      - destruct IH as (more & E & IH). destruct (gen_A1_spec p Hp) as (xs & Ep & _ & Hxs). cbn [mapM]. rewrite Ep, E.
        exists (xs :: more). split; [easy|]. intros y. split.
        + intros (zs & [<-|Hz] & Hy); [exists p; split; [now left|now apply Hxs]|].
          destruct (proj1 (IH y)) as (p' & Hp' & H'); [eauto|]. exists p'. split; [now right|easy].
        + intros (p' & [<-|Hp'] & Hy); [exists xs; split; [now left|now apply Hxs]|].
          destruct (proj2 (IH y)) as (zs & Hz & Hy'); [eauto|]. exists zs. split; [now right|easy]. }
    destruct Hm as (more & -> & Hmore). cbn [bind]. eexists. split; [reflexivity|]. split; [now apply NoDup_updates|].
    intros y. rewrite In_updates, Hmore. split.
    + intros [Hy|(p & Hp & Hy)].
      * apply Hs in Hy. cbn [images In] in *. tauto.
      * apply Hs in Hp. cbn [In] in Hp. decompose [or] Hp; try contradiction; subst p; cbn [images In] in *; tauto.
    + intros Hy. cbn [images In] in Hy.
      assert (S1 : In [a; d; c; b] s) by (apply Hs; cbn; tauto).
      assert (S3 : In [d; a; b; c] s) by (apply Hs; cbn; tauto).
      decompose [or] Hy; try contradiction; subst y.
      * right. exists [a; d; c; b]. split; [easy|]. cbn. tauto.
      * left. apply Hs. cbn. tauto.
      * right. exists [d; a; b; c]. split; [easy|]. cbn. tauto.
      * left. apply Hs. cbn. tauto.
      * left. apply Hs. cbn. tauto.
      * right. exists [a; d; c; b]. split; [easy|]. cbn. tauto.
      * left. apply Hs. cbn. tauto.
      * right. exists [a; d; c; b]. split; [easy|]. cbn. tauto.
Qed.

(** ** the loop *)
Notation disj := (fun o o' : list (list nat) => forall y, In y o -> ~ In y o').
Lemma FOP_app {A} (R : A -> A -> Prop) l l' : ForallOrdPairs R l -> ForallOrdPairs R l' -> (forall a b, In a l -> In b l' -> R a b) -> ForallOrdPairs R (l ++ l').
Proof.
  induction 1 as [|a l Ha H IH]; cbn; [easy|]. intros H' Hr. constructor.
  - apply Forall_app. split; [easy|]. apply Forall_forall. intros b Hb. apply Hr; [now left|easy].
  - apply IH; [easy|]. intros x y Hx. apply Hr. now right.
Qed.
Lemma FOP_nth {A} (R : A -> A -> Prop) l d i j : ForallOrdPairs R l -> i < j -> j < length l -> R (nth i l d) (nth j l d).
Proof.
  intros H. revert i j. induction H as [|a l Ha H IH]; intros i j Hij Hj; [cbn in Hj; lia|].
  destruct j as [|j]; [lia|]. destruct i as [|i].
  - rewrite Forall_forall in Ha. apply Ha. cbn. apply nth_In. cbn in Hj. lia.
  - cbn. apply IH; cbn in Hj; lia.
Qed.

Lemma filter_shorter {A} (f : A -> bool) w l : f w = false -> length (filter f (w :: l)) <= length l.
Proof.
  intros H. cbn. rewrite H. induction l as [|a l IH]; [easy|]. cbn. destruct (f a); cbn; lia.
Qed.

Record inv_ (W : list tup) (work : list tup) (ts : list (list tup)) : Prop := {
  i_orb : Forall (fun o => NoDup o /\ exists w, In w W /\ is_orbit o w) ts;
  i_cov : forall w, In w W -> In w work \/ exists o, In o ts /\ In w o;
  i_new : forall w o, In w work -> In o ts -> ~ In w o;
  i_sub : forall w, In w work -> In w W;
  i_dis : ForallOrdPairs disj ts }.
Lemma loop_ok W : Forall (fun w => length w = 4) W -> forall fuel work ts, length work <= fuel -> inv_ W work ts ->
  exists ts', gen_t_loop fuel work ts = Ok ts' /\ inv_ W [] ts'.
Proof.
  intros HW. assert (HW' : forall w, In w W -> length w = 4) by (now apply Forall_forall).
  induction fuel as [|fuel IH]; intros work ts Hf Hi.
  - destruct work; [|cbn in Hf; lia]. now exists ts.
  - destruct work as [|w work]; [now exists ts|]. cbn [gen_t_loop].
    assert (Hw : In w W) by (apply (i_sub _ _ _ Hi); now left).
    destruct (orbit_ok w (HW' _ Hw)) as (o & -> & Hn & Ho). cbn [bind].
    assert (Hwo : In w o) by (apply Ho, images_self; auto).
    apply IH.
    + assert (length (filter (fun w0 => negb (existsb (eqb w0) o)) (w :: work)) <= length work); [|cbn in Hf; lia].
      apply filter_shorter. apply Bool.negb_false_iff, existsb_In, Hwo.
    + destruct Hi as [H1 H2 H3 H4 H5]. constructor.
      * apply Forall_app. split; [easy|]. constructor; [|constructor]. split; [easy|]. now exists w.
      * intros v Hv. destruct (existsb (eqb v) o) eqn:E.
        -- right. exists o. apply existsb_In in E. split; [apply in_or_app; right; now left|easy].
        -- destruct (H2 v Hv) as [Hv'|(o' & Ho' & Hv')].
           ++ left. apply filter_In. split; [easy|]. now rewrite E.
           ++ right. exists o'. split; [apply in_or_app; now left|easy].
      * intros v o' Hv Ho'. apply filter_In in Hv as [Hv E]. apply Bool.negb_true_iff in E.
        apply in_app_or in Ho' as [Ho'|[<-|[]]]; [now apply (H3 v o')|]. intros Hvo. apply existsb_In in Hvo. congruence.
      * intros v Hv. apply filter_In in Hv as [Hv _]. auto.
      * apply FOP_app; [easy|repeat constructor|]. intros a b Ha [<-|[]] y Hya Hyo.
        rewrite Forall_forall in H1. destruct (H1 a Ha) as (_ & w' & Hw' & Hor).
        apply (H3 w a); [now left|easy|]. apply Hor.
        assert (Hy1 : In y (images w')) by now apply Hor. assert (Hy2 : In y (images w)) by now apply Ho.
        destruct (images_sym w' y (HW' _ Hw') Hy1) as [_ E1]. destruct (images_sym w y (HW' _ Hw) Hy2) as [_ E2].
        apply E1, E2, images_self; auto.
Qed.

Definition seeds (D : nat) : list tup := map (fun x => x ++ [D - 1]) (indices [D; D; D]).
Lemma In_seeds D w : In w (seeds D) <-> exists a b c, w = [a; b; c; D - 1] /\ a < D /\ b < D /\ c < D.
Proof.
  unfold seeds. rewrite in_map_iff. split.
  - intros (x & <- & Hx). apply In_indices in Hx. unfold in_range in Hx.
    inversion Hx as [|? a ? x1 Ha H1]; subst. inversion H1 as [|? b ? x2 Hb H2]; subst. inversion H2 as [|? c ? x3 Hc H3]; subst. inversion H3; subst.
    cbn beta in *. now exists a, b, c.
  - intros (a & b & c & -> & Ha & Hb & Hc). exists [a; b; c]. split; [easy|]. apply In_indices. repeat constructor; easy.
Qed.
Lemma gen_t_ok D : exists ts, gen_t D = Ok ts /\ inv_ (seeds D) [] ts.
Proof.
  unfold gen_t. fold (seeds D). apply loop_ok; [|easy|].
  - apply Forall_forall. intros w Hw. apply In_seeds in Hw as (a & b & c & -> & _). reflexivity.
  - constructor; try easy. now left. constructor.
Qed.

(** orbits of [gen_t D] have maximal index [D-1] *)
Lemma gen_t_members D ts : 0 < D -> inv_ (seeds D) [] ts -> forall o, In o ts ->
  NoDup o /\ o <> [] /\ (forall y, In y o -> length y = 4 /\ list_max y = D - 1 /\ is_orbit o y).
Proof.
  intros HD Hi o Ho. pose proof (i_orb _ _ _ Hi) as H. rewrite Forall_forall in H. destruct (H o Ho) as (Hn & w & Hw & Hor).
  apply In_seeds in Hw as (a & b & c & -> & Ha & Hb & Hc).
  split; [easy|]. split.
  - intros ->. assert (Hin : In [a; b; c; D - 1] []) by (apply Hor; now left). destruct Hin.
  - intros y Hy. apply Hor in Hy. destruct (images_sym [a; b; c; D - 1] y eq_refl Hy) as [Hl Hs]. split; [easy|]. split.
    + rewrite (images_max [a; b; c; D - 1] y eq_refl Hy). cbn. lia.
    + intros z. rewrite (Hor z). symmetry. apply Hs.
Qed.
Lemma gen_t_covers D ts x : 0 < D -> inv_ (seeds D) [] ts -> length x = 4 -> list_max x = D - 1 -> exists o, In o ts /\ In x o.
Proof.
  intros HD Hi Hl Hm. destruct (len4 x Hl) as (a & b & c & d & ->).
  assert (Hs : exists w, In w (seeds D) /\ In w (images [a; b; c; d])).
  { cbn in Hm. assert (Hd : a = D - 1 \/ b = D - 1 \/ c = D - 1 \/ d = D - 1) by lia.
    destruct Hd as [E|[E|[E|E]]].
    - exists [b; c; d; a]. split; [apply In_seeds; exists b, c, d; rewrite E; repeat split; lia|]. right; now left.
    - exists [c; d; a; b]. split; [apply In_seeds; exists c, d, a; rewrite E; repeat split; lia|]. right; right; now left.
    - exists [d; a; b; c]. split; [apply In_seeds; exists d, a, b; rewrite E; repeat split; lia|]. right; right; right; now left.
    - exists [a; b; c; d]. split; [apply In_seeds; exists a, b, c; rewrite E; repeat split; lia|]. now left. }
  destruct Hs as (w & Hw & Hx). destruct (i_cov _ _ _ Hi w Hw) as [[]|(o & Ho & Hwo)].
  exists o. split; [easy|]. destruct (gen_t_members D ts HD Hi o Ho) as (_ & _ & H). destruct (H w Hwo) as (Hlw & _ & Hor).
  apply Hor. destruct (images_sym _ _ Hl Hx) as [_ E]. apply E, images_self; easy.
Qed.

(** ** all orbits *)
Lemma upto_ok D : exists gs, gen_upto_D D = Ok gs /\ length gs = D /\ forall k, k < D -> inv_ (seeds (S k)) [] (nth k gs []).
Proof.
  unfold gen_upto_D. assert (H : forall n, exists gs, mapM gen_t (seq n D) = Ok gs /\ length gs = D /\ forall k, k < D -> inv_ (seeds (n + k)) [] (nth k gs [])).
  { induction D as [|D IH]; intros n; cbn [seq mapM]; [exists []; split; [easy|split; [easy|lia]]|].
    destruct (gen_t_ok n) as (ts & -> & Hi). cbn [bind]. destruct (IH (S n)) as (gs & -> & Hl & Hg). cbn [bind].
    exists (ts :: gs). split; [easy|]. split; [cbn; lia|]. intros [|k] Hk; cbn [nth]; [now rewrite Nat.add_0_r|].
    replace (n + S k) with (S n + k) by lia. apply Hg. lia. }
  apply (H 1).
Qed.
Lemma max_lt x D : length x = 4 -> (bonds D x <-> list_max x < D).
Proof.
  intros H. destruct (len4 x H) as (a & b & c & d & ->). unfold bonds. split.
  - intros [_ Hf]. inversion Hf as [|? ? H1 Hf1]; subst. inversion Hf1 as [|? ? H2 Hf2]; subst. inversion Hf2 as [|? ? H3 Hf3]; subst. inversion Hf3 as [|? ? H4 _]; subst. cbn. lia.
  - cbn. intros Hm. split; [easy|]. repeat constructor; lia.
Qed.
Lemma In_concat_nth {A} (gs : list (list A)) o : In o (concat gs) <-> exists k, k < length gs /\ In o (nth k gs []).
Proof.
  rewrite in_concat. split.
  - intros (g & Hg & Ho). destruct (In_nth gs g [] Hg) as (k & Hk & <-). eauto.
  - intros (k & Hk & Ho). exists (nth k gs []). split; [now apply nth_In|easy].
Qed.
Lemma upto_partition D gs : length gs = D -> (forall k, k < D -> inv_ (seeds (S k)) [] (nth k gs [])) ->
  partition D (concat gs) /\ (forall k o x, k < D -> In o (nth k gs []) -> In x o -> list_max x = k).
Proof.
  intros Hl Hg.
  assert (Hmem : forall k o, k < D -> In o (nth k gs []) -> NoDup o /\ o <> [] /\ (forall y, In y o -> length y = 4 /\ list_max y = k /\ is_orbit o y)).
  { intros k o Hk Ho. destruct (gen_t_members (S k) _ ltac:(lia) (Hg k Hk) o Ho) as (H1 & H2 & H3). split; [easy|]. split; [easy|].
    intros y Hy. destruct (H3 y Hy) as (? & E & ?). split; [easy|]. split; [lia|easy]. }
  assert (Hd : ForallOrdPairs disj (concat gs)).
  { assert (H : forall n gs', (forall k, k < length gs' -> ForallOrdPairs disj (nth k gs' []) /\ forall o x, In o (nth k gs' []) -> In x o -> list_max x = n + k) -> ForallOrdPairs disj (concat gs')).
    { clear. intros n gs'. revert n. induction gs' as [|g gs' IH]; intros n H; cbn; [constructor|]. apply FOP_app.
      - now apply (H 0 ltac:(cbn; lia)).
      - apply (IH (S n)). intros k Hk. destruct (H (S k) ltac:(cbn; lia)) as [H1 H2]. split; [easy|]. intros o x Ho Hx. rewrite (H2 o x Ho Hx). lia.
      - intros a b Ha Hb y Hya Hyb. apply In_concat_nth in Hb as (k & Hk & Hb).
        pose proof (proj2 (H 0 ltac:(cbn; lia)) a y Ha Hya). pose proof (proj2 (H (S k) ltac:(cbn; lia)) b y Hb Hyb). lia. }
    apply (H 0). rewrite Hl. intros k Hk. split; [apply (i_dis _ _ _ (Hg k Hk))|].
    intros o x Ho Hx. destruct (Hmem k o Hk Ho) as (_ & _ & H'). now destruct (H' x Hx) as (_ & ? & _). }
  split; [split|].
  - intros x Hx. assert (Hlx : length x = 4) by apply Hx. apply (max_lt x D Hlx) in Hx.
    destruct (gen_t_covers (S (list_max x)) _ x ltac:(lia) (Hg _ Hx) Hlx ltac:(lia)) as (o & Ho & Hxo).
    assert (Hoc : In o (concat gs)) by (apply In_concat_nth; exists (list_max x); split; [lia|easy]).
    destruct (In_nth _ _ [] Hoc) as (j & Hj & Ej). exists j. split; [rewrite Ej; easy|].
    intros j' [Hj' Hin]. destruct (Nat.lt_trichotomy j j') as [H|[H|H]]; [exfalso|easy|exfalso].
    + apply (FOP_nth _ _ [] j j' Hd H Hj' x); [now rewrite Ej|easy].
    + apply (FOP_nth _ _ [] j' j Hd H Hj x); [easy|now rewrite Ej].
  - intros o Ho. apply In_concat_nth in Ho as (k & Hk & Ho). rewrite Hl in Hk. destruct (Hmem k o Hk Ho) as (H1 & H2 & H3).
    split; [easy|]. split; [easy|]. intros x Hx. destruct (H3 x Hx) as (Hlx & Hmx & Hor). split; [apply max_lt; [easy|lia]|].
    intros y. rewrite (Hor y). now apply In_images.
  - intros k o x Hk Ho Hx. destruct (Hmem k o Hk Ho) as (_ & _ & H). now destruct (H x Hx) as (_ & ? & _).
Qed.
Lemma gen_upto_partition D : exists gs, gen_upto_D D = Ok gs /\ partition D (concat gs) /\
  length gs = D /\ (forall k o x, k < D -> In o (nth k gs []) -> In x o -> list_max x = k).
Proof.
  destruct (upto_ok D) as (gs & E & Hl & Hg). exists gs. destruct (upto_partition D gs Hl Hg). auto.
Qed.
Lemma orbit_spec x : length x = 4 -> exists o, gen_c4v_symm_A1 x = Ok o /\ NoDup o /\ orbit_of o x.
Proof.
  intros H. destruct (orbit_ok x H) as (o & E & Hn & Ho). exists o. split; [easy|]. split; [easy|].
  intros y. rewrite (Ho y). now apply In_images.
Qed.
