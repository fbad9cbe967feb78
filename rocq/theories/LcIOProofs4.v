(** Proofs about the on-site tensor of a linear-combination state. *)
From Coq Require Import Ring_theory Ring.
From Verif Require Import Base BaseLemmas Tensor TensorLemmas TensorIO TensorIOSpec
  StateIO Lattice LcIO LcIOSpec LcIOProofs LcIOProofs2 LcIOProofs3.
Open Scope nat_scope.
Open Scope list_scope.
Open Scope res_scope.

Section P.
Context {R : Type}.
Variables zero one : R.
Variables add mul sub : R -> R -> R.
Variable opp : R -> R.
Hypothesis Rth : ring_theory zero one add mul sub opp eq.
Add Ring Rr : Rth.

Notation new := (lcs_new zero one add mul sub).
Notation stacked := (stacked zero one add mul sub).
Notation times_i := (times_i zero one add mul sub).
Notation weighted := (weighted zero add mul).
Notation value := (value zero).
Notation A1 := "A_1"%string.
Notation A2 := "A_2"%string.

Definition irrep (mt : lmeta * ten R) : option string := dget (m_meta (fst mt)) "pg"%string.

Lemma pgs elem irr : mapM (fun mt : lmeta * ten R => pg (fst mt)) elem = Ok irr ->
  Forall2 (fun mt i => irrep mt = Some i) elem irr.
Proof. intros Hm. apply mapM_ok in Hm. eapply Forall2_impl2; [|exact Hm]. intros mt i _ Hi.
  unfold pg, dget_exn in Hi. unfold irrep. destruct (dget (m_meta (fst mt)) "pg"%string); congruence. Qed.

Lemma pgs_ok elem : (forall mt, In mt elem -> irrep mt <> None) -> exists irr, mapM (fun mt : lmeta * ten R => pg (fst mt)) elem = Ok irr.
Proof. induction elem as [|mt l IH]; intros Hl; [exists []; reflexivity|]. cbn [mapM].
  assert (Hmt := Hl mt (or_introl eq_refl)). unfold irrep in Hmt. unfold pg at 1, dget_exn.
  destruct (dget (m_meta (fst mt)) "pg"%string) as [i|]; [|congruence]. cbn [bind].
  destruct IH as [irr ->]; [intros x Hx; apply Hl; right; exact Hx|]. cbn. eauto. Qed.

Lemma sel_of_irrep p elem irr : Forall2 (fun mt i => irrep mt = Some i) elem irr ->
  map (fun it : string * (lmeta * ten R) => snd (snd it)) (filter (fun it => String.eqb (fst it) p) (combine irr elem))
  = of_irrep p elem.
Proof. unfold of_irrep. induction 1 as [|mt i l irr Hi Hf IH]; [reflexivity|]. cbn [combine filter fst].
  unfold irrep in Hi. rewrite Hi.
  assert (He : eqb (Some i) (Some p) = String.eqb i p).
  { destruct (String.eqb_spec i p) as [->|Hn]; [apply (eqb_true (Some p) (Some p)); reflexivity|].
    apply (eqb_false (Some i) (Some p)). congruence. }
  rewrite He. destruct (String.eqb i p); cbn [map snd]; [now rewrite IH|exact IH]. Qed.

Lemma set_is_A1 irr : set_is irr [A1] = true <-> irr <> [] /\ forall i, In i irr -> i = A1.
Proof. unfold set_is. rewrite andb_true_iff, !forallb_forall. split.
  - intros [H1 H2]. split.
    + intros ->. specialize (H2 A1 (or_introl eq_refl)). discriminate.
    + intros i Hi. specialize (H1 i Hi). cbn in H1. rewrite orb_false_r in H1. apply String.eqb_eq in H1. exact H1.
  - intros [Hn Hi]. split.
    + intros i Hx. rewrite (Hi i Hx). reflexivity.
    + intros x [<-|[]]. destruct irr as [|i irr]; [congruence|]. apply existsb_exists. exists i.
      split; [left; reflexivity|]. rewrite (Hi i (or_introl eq_refl)). reflexivity. Qed.

Lemma set_is_A12 irr : set_is irr [A1; A2] = true <-> In A1 irr /\ In A2 irr /\ forall i, In i irr -> i = A1 \/ i = A2.
Proof. unfold set_is. rewrite andb_true_iff, !forallb_forall. split.
  - intros [H1 H2]. assert (K1 := H2 A1 (or_introl eq_refl)). assert (K2 := H2 A2 (or_intror (or_introl eq_refl))).
    apply existsb_exists in K1, K2. destruct K1 as (x & Hx & Ex), K2 as (y & Hy & Ey).
    apply String.eqb_eq in Ex, Ey. subst. repeat split; try assumption.
    intros i Hi. specialize (H1 i Hi). cbn in H1. rewrite orb_false_r in H1. apply orb_true_iff in H1.
    rewrite !String.eqb_eq in H1. exact H1.
  - intros (H1 & H2 & H3). split.
    + intros i Hi. destruct (H3 i Hi) as [->| ->]; reflexivity.
    + intros x [<-|[<-|[]]]; apply existsb_exists; [exists A1|exists A2]; split; try assumption; reflexivity. Qed.

(** the list of tensors that is combined *)
Lemma stacked_spec elem ts : stacked elem = Ok ts ->
  (forall mt, In mt elem -> irrep mt = Some A1 \/ irrep mt = Some A2) /\
  (((forall mt, In mt elem -> irrep mt = Some A1) /\ ts = map snd elem /\ of_irrep A1 elem = ts /\ of_irrep A2 elem = []) \/
   (of_irrep A2 elem <> [] /\ ts = of_irrep A1 elem ++ map times_i (of_irrep A2 elem))).
Proof. unfold LcIO.stacked. intros Hs. bind_inv Hs. rename a into irr. assert (Hf := pgs _ _ Ha).
  destruct (set_is irr [A1]) eqn:E1.
  - inv Hs. apply set_is_A1 in E1. destruct E1 as [_ Hi].
    assert (Hall : forall mt, In mt elem -> irrep mt = Some A1).
    { intros mt Hm. apply In_nth_error in Hm. destruct Hm as [k Hk].
      destruct (Forall2_nth_error_l _ _ _ _ _ Hf Hk) as (i & Hx & ->). apply nth_error_In in Hx. now rewrite (Hi i Hx). }
    split; [intros mt Hm; left; apply Hall; exact Hm|]. left. split; [exact Hall|]. split; [reflexivity|].
    clear -Hall. unfold of_irrep. split; induction elem as [|mt l IH]; try reflexivity; cbn [filter map];
      assert (Hm := Hall mt (or_introl eq_refl)); unfold irrep in Hm; rewrite Hm.
    + replace (eqb (Some A1) (Some A1)) with true by reflexivity. cbn [map]. f_equal. apply IH. intros x Hx; apply Hall; right; exact Hx.
    + replace (eqb (Some A1) (Some A2)) with false by reflexivity. apply IH. intros x Hx; apply Hall; right; exact Hx.
  - destruct (set_is irr [A1; A2]) eqn:E2; [|discriminate]. apply set_is_A12 in E2. destruct E2 as (_ & H2 & H3).
    rewrite !(sel_of_irrep _ _ _ Hf) in Hs. inv Hs. split.
    + intros mt Hm. apply In_nth_error in Hm. destruct Hm as [k Hk].
      destruct (Forall2_nth_error_l _ _ _ _ _ Hf Hk) as (i & Hx & ->). apply nth_error_In in Hx.
      destruct (H3 i Hx) as [->| ->]; auto.
    + right. split; [|reflexivity]. intros Hn. rewrite <- (sel_of_irrep A2 _ _ Hf) in Hn.
      apply In_nth_error in H2. destruct H2 as [k Hk].
      assert (Hl := Forall2_len _ _ _ Hf).
      destruct (nth_error elem k) as [mt|] eqn:Em; [|apply nth_error_None in Em; assert (k < length irr) by (apply nth_error_Some; congruence); lia].
      assert (Hin : In (A2, mt) (combine irr elem)).
      { clear -Hk Em. revert k irr Hk Em. induction elem as [|x l IH]; intros [|k] [|y irr] Hk Hi; try discriminate; cbn in *.
        - left; congruence.
        - right; eapply IH; eassumption. }
      assert (Hin2 : In (snd mt) (map (fun it : string * (lmeta * ten R) => snd (snd it)) (filter (fun it => String.eqb (fst it) A2) (combine irr elem)))).
      { apply in_map_iff. exists (A2, mt). split; [reflexivity|]. apply filter_In. split; [exact Hin|reflexivity]. }
      rewrite Hn in Hin2. contradiction. Qed.

Lemma stacked_irreps elem : elem <> [] ->
  (forall mt, In mt elem -> irrep mt = Some A1 \/ irrep mt = Some A2) ->
  (exists mt, In mt elem /\ irrep mt = Some A1) -> exists ts, stacked elem = Ok ts.
Proof. intros Hne Hall (m1 & Hm1 & Hi1). unfold LcIO.stacked.
  destruct (pgs_ok elem) as [irr Hirr]; [intros mt Hm; destruct (Hall mt Hm); congruence|]. rewrite Hirr. cbn [bind].
  assert (Hf := pgs _ _ Hirr). destruct (set_is irr [A1]) eqn:E1; [eauto|]. destruct (set_is irr [A1; A2]) eqn:E2; [eauto|].
  exfalso.
  assert (Hi : forall i, In i irr -> i = A1 \/ i = A2).
  { intros i Hx. clear -Hf Hx Hall. induction Hf as [|mt j l irr Hj Hf IH]; [contradiction|]. destruct Hx as [->|Hx].
    - destruct (Hall mt (or_introl eq_refl)); rewrite Hj in *; [left|right]; congruence.
    - apply IH; [intros x Hy; apply Hall; right; exact Hy|exact Hx]. }
  assert (H1 : In A1 irr).
  { apply In_nth_error in Hm1. destruct Hm1 as [k Hk]. destruct (Forall2_nth_error_l _ _ _ _ _ Hf Hk) as (i & Hx & Hy).
    apply nth_error_In in Hx. rewrite Hi1 in Hy. injection Hy; intros <-. exact Hx. }
  destruct (in_dec string_dec A2 irr) as [H2|H2].
  - apply not_true_iff_false in E2. apply E2. apply set_is_A12. repeat split; assumption.
  - apply not_true_iff_false in E1. apply E1. apply set_is_A1. split; [intros ->; contradiction|].
    intros i Hx. destruct (Hi i Hx) as [->| ->]; [reflexivity|contradiction]. Qed.

(** ** sums *)
Lemma fold_left_sum {A} (f : A -> R) l s : fold_left (fun acc x => add acc (f x)) l s = add s (fold_right add zero (map f l)).
Proof. revert s. induction l as [|x l IH]; intros s; cbn; [ring|]. rewrite IH. ring. Qed.

Lemma fold_left_csum {A} (f : A -> R * R) l s :
  fold_left (fun acc x => cadd2 add acc (f x)) l s =
  (add (fst s) (fold_right add zero (map (fun x => fst (f x)) l)), add (snd s) (fold_right add zero (map (fun x => snd (f x)) l))).
Proof. revert s. induction l as [|x l IH]; intros s; cbn.
  - destruct s; cbn; f_equal; ring.
  - rewrite IH. unfold cadd2; cbn [fst snd]. f_equal; ring. Qed.

Lemma sum_app l l' : fold_right add zero (l ++ l') = add (fold_right add zero l) (fold_right add zero l').
Proof. induction l as [|x l IH]; cbn; [ring|]. rewrite IH. ring. Qed.

Lemma sum_zero {A} (f : A -> R) l : (forall x, In x l -> f x = zero) -> fold_right add zero (map f l) = zero.
Proof. induction l as [|x l IH]; intros Hl; cbn; [reflexivity|]. rewrite Hl by (left; reflexivity).
  rewrite IH by (intros y Hy; apply Hl; right; exact Hy). ring. Qed.

Lemma pairs_eq {K} (c : list K) (ts : list (tensor K)) : length c = length ts -> pairs c ts = Ok (combine c ts).
Proof. intros Hl. unfold pairs. destruct c as [|x [|y c]]; destruct ts as [|t [|u ts]]; try discriminate; try reflexivity.
  cbn [length] in *. replace (S (S (length c)) =? S (S (length ts))) with true by (symmetry; apply Nat.eqb_eq; lia). reflexivity. Qed.

Lemma combine_app_r {A B} (l : list A) (a b : list B) : combine l (a ++ b) = combine (firstn (length a) l) a ++ combine (skipn (length a) l) b.
Proof. revert l. induction a as [|x a IH]; intros [|y l]; cbn; try reflexivity.
  now rewrite IH. Qed.

Lemma combine_map_both {A B C D} (f : A -> C) (g : B -> D) (l : list A) (l' : list B) :
  combine (map f l) (map g l') = map (fun ab => (f (fst ab), g (snd ab))) (combine l l').
Proof. revert l'; induction l as [|a l IH]; intros [|b l']; cbn; try reflexivity. now rewrite IH. Qed.

(** a real tensor, its complex copy and its product with i *)
Definition is_real (t : ten R) : Prop := exists T, t = TReal T.
Definition elt (t : ten R) (ix : list nat) : R := match value t ix with Some v => fst v | None => zero end.

Lemma at_to_cplx t ix : is_real t -> at_ (czero zero) (to_cplx zero t) ix = (elt t ix, zero).
Proof. intros [T ->]. unfold at_, elt, value, to_cplx. rewrite tget_tmap. destruct (tget T ix); reflexivity. Qed.

Lemma at_times_i t ix : is_real t -> at_ (czero zero) (to_cplx zero (times_i t)) ix = (zero, elt t ix).
Proof. intros [T ->]. unfold at_, elt, value, LcIO.times_i, to_cplx. rewrite !tget_tmap. destruct (tget T ix); cbn; [|reflexivity].
  unfold cmul2; cbn. f_equal; ring. Qed.

Lemma at_real t ix : is_real t -> at_ zero (match t with TReal t => t | TCplx t => tmap fst t end) ix = elt t ix.
Proof. intros [T ->]. unfold at_, elt, value. destruct (tget T ix); reflexivity. Qed.

Definition documented (elem : list (lmeta * ten R)) (l : list R) (ix : list nat) : R * R :=
  let n1 := length (of_irrep A1 elem) in
  (weighted (firstn n1 l) (of_irrep A1 elem) ix, weighted (skipn n1 l) (of_irrep A2 elem) ix).

Lemma of_irrep_In p elem t : In t (of_irrep p elem) -> exists mt, In mt elem /\ snd mt = t /\ irrep mt = Some p.
Proof. unfold of_irrep. intros Ht. apply in_map_iff in Ht. destruct Ht as (mt & <- & Ht). apply filter_In in Ht.
  destruct Ht as [Hi He]. exists mt. split; [exact Hi|]. split; [reflexivity|]. apply (eqb_true (irrep mt) (Some p)) in He. exact He. Qed.

Lemma of_irrep_len elem : (forall mt, In mt elem -> irrep mt = Some A1 \/ irrep mt = Some A2) ->
  length (of_irrep A1 elem) + length (of_irrep A2 elem) = length elem.
Proof. unfold of_irrep. intros Hl. rewrite !map_length. induction elem as [|mt l IH]; [reflexivity|]. cbn [filter].
  specialize (IH (fun x Hx => Hl x (or_intror Hx))).
  destruct (Hl mt (or_introl eq_refl)) as [Hi|Hi]; unfold irrep in Hi; rewrite Hi.
  - replace (eqb (Some A1) (Some A1)) with true by reflexivity. replace (eqb (Some A1) (Some A2)) with false by reflexivity.
    cbn [length]. lia.
  - replace (eqb (Some A2) (Some A2)) with true by reflexivity. replace (eqb (Some A2) (Some A1)) with false by reflexivity.
    cbn [length]. lia. Qed.

Lemma site_value elem ts n l s : (forall mt, In mt elem -> square (snd mt)) ->
  stacked elem = Ok ts -> length l = length elem -> n = length elem ->
  combine_site zero add mul sub 5 (stack_cplx ts) ts (TReal (mkT [n] l)) = Ok s ->
  exists p a, ten_shape s = [p; a; a; a; a] /\
    forall ix, addresses [p; a; a; a; a] ix -> value s ix = Some (documented elem l ix).
Proof. intros Hsq Hs Hl Hn Hc. destruct (stacked_spec _ _ Hs) as [Hall Hcase].
  assert (Hreal : forall mt, In mt elem -> is_real (snd mt)).
  { intros mt Hm. destruct (Hsq mt Hm) as (T & _ & _ & -> & _). exists T; reflexivity. }
  unfold combine_site in Hc. bind_inv Hc. rename a into dims.
  assert (Hb : box dims).
  { eapply stacked_shape_box; [|exact Hs|exact Ha]. intros mt Hm. apply square_box. apply Hsq; exact Hm. }
  destruct Hb as (p & a & ->). exists p, a.
  destruct Hcase as [(Hall1 & -> & H1 & H2)|(Hne & ->)].
  - assert (Hsc : stack_cplx (map snd elem) = false).
    { unfold stack_cplx. apply not_true_iff_false. intros Hx. apply existsb_exists in Hx. destruct Hx as (x & Hx & Hxc).
      apply in_map_iff in Hx. destruct Hx as (mt & <- & Hx). destruct (Hreal _ Hx) as [T HT]. rewrite HT in Hxc. discriminate. }
    rewrite Hsc in Hc. bind_inv Hc. inv Hc. unfold lincomb in Ha0. cbn [tdims length Nat.eqb bind tdata] in Ha0.
    rewrite pairs_eq in Ha0 by (unfold reals; rewrite !map_length; lia). cbn [bind] in Ha0. inv Ha0.
    split; [reflexivity|]. intros ix Hix. unfold LcIOSpec.value. rewrite tget_tbuild by exact Hix. f_equal.
    rewrite (fold_left_sum (fun ct => mul (fst ct) (at_ zero (snd ct) ix))). unfold documented. rewrite H2, H1.
    rewrite map_length, <- Hl, firstn_all, skipn_all. f_equal.
    rewrite (Radd_0_l Rth). unfold LcIOSpec.weighted, reals. f_equal. rewrite combine_map_r, map_map. cbn [fst snd].
    apply map_ext_in. intros [x t] Hx. cbn [fst snd]. f_equal. apply at_real.
    apply in_combine_r in Hx. apply in_map_iff in Hx. destruct Hx as (mt & <- & Hm). apply Hreal; exact Hm.
  - set (e1 := of_irrep A1 elem) in *. set (e2 := of_irrep A2 elem) in *.
    assert (Hr1 : forall t, In t e1 -> is_real t) by (intros t Ht; destruct (of_irrep_In _ _ _ Ht) as (mt & Hm & <- & _); apply Hreal; exact Hm).
    assert (Hr2 : forall t, In t e2 -> is_real t) by (intros t Ht; destruct (of_irrep_In _ _ _ Ht) as (mt & Hm & <- & _); apply Hreal; exact Hm).
    assert (Hsc : stack_cplx (e1 ++ map times_i e2) = true).
    { unfold stack_cplx. rewrite existsb_app. apply orb_true_iff; right. destruct e2; [congruence|reflexivity]. }
    rewrite Hsc in Hc. bind_inv Hc. inv Hc. unfold lincomb in Ha0. cbn [to_cplx tmap tdims length Nat.eqb bind tdata] in Ha0.
    assert (Hlen : length e1 + length e2 = length elem) by (apply of_irrep_len; exact Hall).
    rewrite pairs_eq in Ha0 by (rewrite !map_length, app_length, map_length; lia). cbn [bind] in Ha0. inv Ha0.
    split; [reflexivity|]. intros ix Hix. unfold LcIOSpec.value. rewrite tget_tbuild by exact Hix. f_equal.
    rewrite (fold_left_csum (fun ct => cmul2 add mul sub (fst ct) (at_ (czero zero) (snd ct) ix))). unfold documented. fold e1 e2.
    rewrite combine_map_both, combine_app_r, map_app, !map_app, !sum_app, combine_map_r, !map_map. cbn [fst snd czero].
    assert (S1 : forall l1 : list R,
      map (fun x : R * ten R => fst (cmul2 add mul sub (fst x, zero) (at_ (czero zero) (to_cplx zero (snd x)) ix))) (combine l1 e1) =
      map (fun x : R * ten R => mul (fst x) (elt (snd x) ix)) (combine l1 e1)).
    { intros l1. apply map_ext_in. intros [x t] Hx. cbn [fst snd]. rewrite at_to_cplx by (apply Hr1; exact (in_combine_r _ _ _ _ Hx)).
      unfold cmul2; cbn. ring. }
    assert (S2 : forall l1 : list R,
      fold_right add zero (map (fun x : R * ten R => snd (cmul2 add mul sub (fst x, zero) (at_ (czero zero) (to_cplx zero (snd x)) ix))) (combine l1 e1)) = zero).
    { intros l1. apply sum_zero. intros [x t] Hx. cbn [fst snd]. rewrite at_to_cplx by (apply Hr1; exact (in_combine_r _ _ _ _ Hx)).
      unfold cmul2; cbn. ring. }
    assert (S3 : forall l1 : list R,
      fold_right add zero (map (fun x : R * ten R => fst (cmul2 add mul sub (fst x, zero) (at_ (czero zero) (to_cplx zero (times_i (snd x))) ix))) (combine l1 e2)) = zero).
    { intros l1. apply sum_zero. intros [x t] Hx. cbn [fst snd]. rewrite at_times_i by (apply Hr2; exact (in_combine_r _ _ _ _ Hx)).
      unfold cmul2; cbn. ring. }
    assert (S4 : forall l1 : list R,
      map (fun x : R * ten R => snd (cmul2 add mul sub (fst x, zero) (at_ (czero zero) (to_cplx zero (times_i (snd x))) ix))) (combine l1 e2) =
      map (fun x : R * ten R => mul (fst x) (elt (snd x) ix)) (combine l1 e2)).
    { intros l1. apply map_ext_in. intros [x t] Hx. cbn [fst snd]. rewrite at_times_i by (apply Hr2; exact (in_combine_r _ _ _ _ Hx)).
      unfold cmul2; cbn. ring. }
    rewrite S1, S2, S3, S4. unfold LcIOSpec.weighted, elt. f_equal; ring. Qed.

(** the shapes of all tensors agree *)
Lemma stack_shape_In (ts : list (ten R)) dims t : stack_shape ts = Ok dims -> In t ts -> ten_shape t = dims.
Proof. unfold stack_shape. destruct ts as [|u ts]; [discriminate|]. destruct (forallb _ ts) eqn:Hf; [|discriminate].
  intros Hd; inv Hd. intros [->|Ht]; [reflexivity|]. rewrite forallb_forall in Hf. specialize (Hf t Ht).
  apply (eqb_true (ten_shape t) (ten_shape u)) in Hf. exact Hf. Qed.

Lemma stacked_shape elem ts dims mt : stacked elem = Ok ts -> stack_shape ts = Ok dims -> In mt elem -> ten_shape (snd mt) = dims.
Proof. intros Hs Hd Hm. destruct (stacked_spec _ _ Hs) as [Hall [(_ & -> & _ & _)|(_ & ->)]].
  - eapply stack_shape_In; [exact Hd|]. apply in_map; exact Hm.
  - assert (Hin : forall p, irrep mt = Some p -> In (snd mt) (of_irrep p elem)).
    { intros p Hp. unfold of_irrep. apply in_map. apply filter_In. split; [exact Hm|]. unfold irrep in Hp. rewrite Hp.
      apply (eqb_true (Some p) (Some p)). reflexivity. }
    destruct (Hall mt Hm) as [Hi|Hi].
    + eapply stack_shape_In; [exact Hd|]. apply in_app_iff. left. apply Hin; exact Hi.
    + rewrite <- (stack_shape_In _ _ (times_i (snd mt)) Hd); [destruct (snd mt); reflexivity|].
      apply in_app_iff. right. apply in_map. apply Hin; exact Hi. Qed.

Theorem onsite_value elem coeffs st k l n :
  (forall mt, In mt elem -> square (snd mt)) -> NoDup (dkeys coeffs) ->
  new elem coeffs = Ok st -> In (k, TReal (mkT [n] l)) coeffs -> length l = n -> n = length elem ->
  exists sites s p a, i_sites (s_state st) = Some sites /\ dkeys sites = dkeys coeffs /\ dget sites k = Some s /\
    (forall mt, In mt elem -> ten_shape (snd mt) = [p; a; a; a; a]) /\ ten_shape s = [p; a; a; a; a] /\
    forall ix, addresses [p; a; a; a; a] ix -> value s ix = Some (documented elem l ix).
Proof. intros Hsq Hnd Hnew Hin Hl Hn. unfold lcs_new in Hnew. bind_inv Hnew. rename a into sites. bind_inv Hnew. inv Hnew.
  cbn [s_state]. unfold build_onsite in Ha. bind_inv Ha. rename a0 into ts. bind_inv Ha. rename a0 into dims.
  assert (Hf := proj1 (mapM_ok _ _ _) Ha).
  assert (Hk : dkeys sites = dkeys coeffs).
  { clear -Hf. unfold dkeys. induction Hf as [|[k c] b l l' Hb Hf IH]; [reflexivity|]. bind_inv Hb. inv Hb. cbn [map fst]. now rewrite IH. }
  apply In_nth_error in Hin. destruct Hin as [i Hi].
  destruct (Forall2_nth_error_l _ _ _ _ _ Hf Hi) as ([k' s] & Hx & Hs). cbn [fst snd] in Hs. bind_inv Hs. inv Hs.
  apply nth_error_In in Hx.
  destruct (site_value elem ts (length elem) l s Hsq Ha1 ltac:(congruence) eq_refl) as (p & q & Hsh & Hv).
  { rewrite <- Ha3. congruence. }
  assert (Hd : dims = [p; q; q; q; q]).
  { unfold combine_site in Ha3. rewrite Ha2 in Ha3. cbn [bind] in Ha3. rewrite <- Hsh.
    destruct (stack_cplx ts); cbn [to_cplx] in Ha3; bind_inv Ha3; inv Ha3; unfold lincomb in Ha4; bind_inv Ha4; bind_inv Ha4; bind_inv Ha4; inv Ha4; reflexivity. }
  exists sites, s, p, q. split; [|split; [exact Hk|split; [apply In_dget; [rewrite Hk; exact Hnd|exact Hx]|split; [|split; [exact Hsh|exact Hv]]]]].
  - destruct sites as [|s0 sites]; [contradiction|]. unfold ipeps_init in Ha0. cbn [sites_truthy] in Ha0. bind_inv Ha0.
    bind_inv Ha4. inv Ha4. bind_inv Ha0. destruct a0 as [x y]. cbn [pat_truthy] in Ha0. inv Ha0. reflexivity.
  - intros mt Hm. rewrite <- Hd. eapply stacked_shape; eassumption. Qed.

(** ** symmetry *)
Lemma weighted_ext l es ix jx : (forall t, In t es -> elt t jx = elt t ix) -> weighted l es jx = weighted l es ix.
Proof. intros He. unfold LcIOSpec.weighted. f_equal. apply map_ext_in. intros [x t] Hx. cbn [fst snd]. f_equal.
  apply He. exact (in_combine_r _ _ _ _ Hx). Qed.

Lemma weighted_opp l es ix jx : (forall t, In t es -> elt t jx = opp (elt t ix)) -> weighted l es jx = opp (weighted l es ix).
Proof. intros He. unfold LcIOSpec.weighted.
  assert (Hm : forall t, In t (combine l es) -> mul (fst t) (elt (snd t) jx) = opp (mul (fst t) (elt (snd t) ix))).
  { intros [x t] Hx. cbn [fst snd]. rewrite He by exact (in_combine_r _ _ _ _ Hx). ring. }
  unfold elt in Hm. clear He. induction (combine l es) as [|x c IH]; cbn; [ring|]. rewrite Hm by (left; reflexivity).
  rewrite IH by (intros y Hy; apply Hm; right; exact Hy). ring. Qed.

Lemma rotated_in p a ix : addresses [p; a; a; a; a] ix -> addresses [p; a; a; a; a] (rotated ix) /\ addresses [p; a; a; a; a] (mirrored ix).
Proof. unfold addresses. intros Hx. inv Hx. inv H3. inv H5. inv H6. inv H7. inv H8. cbn. split; repeat (constructor; try assumption). Qed.

Lemma elt_of t ix v : value t ix = v -> elt t ix = match v with Some v => fst v | None => zero end.
Proof. intros <-. reflexivity. Qed.

Theorem onsite_symmetric elem coeffs st k l n :
  (forall mt, In mt elem -> square (snd mt)) -> NoDup (dkeys coeffs) ->
  new elem coeffs = Ok st -> In (k, TReal (mkT [n] l)) coeffs -> length l = n -> n = length elem ->
  (forall t, In t (of_irrep A1 elem) -> symmetric zero (fun v => v) t) ->
  (forall t, In t (of_irrep A2 elem) -> symmetric zero (neg opp) t) ->
  exists sites s, i_sites (s_state st) = Some sites /\ dget sites k = Some s /\ symmetric zero (conjugate opp) s.
Proof. intros Hsq Hnd Hnew Hin Hl Hn H1 H2.
  destruct (onsite_value elem coeffs st k l n Hsq Hnd Hnew Hin Hl Hn) as (sites & s & p & a & Hs & _ & Hg & Hsh & Hss & Hv).
  exists sites, s. split; [exact Hs|]. split; [exact Hg|]. intros ix Hix. rewrite Hss in Hix.
  destruct (rotated_in _ _ _ Hix) as [Hr Hm]. rewrite (Hv _ Hr), (Hv _ Hm), (Hv _ Hix). cbn [option_map].
  assert (Hshp : forall q t, In t (of_irrep q elem) -> addresses (ten_shape t) ix).
  { intros q t Ht. destruct (of_irrep_In _ _ _ Ht) as (mt & Hm' & <- & _). rewrite Hsh by exact Hm'. exact Hix. }
  unfold documented, conjugate. cbn [fst snd]. split; do 2 f_equal.
  - apply weighted_ext. intros t Ht. destruct (H1 t Ht ix (Hshp _ _ Ht)) as [He _]. rewrite (elt_of _ _ _ He). reflexivity.
  - apply weighted_ext. intros t Ht. destruct (H2 t Ht ix (Hshp _ _ Ht)) as [He _]. rewrite (elt_of _ _ _ He). reflexivity.
  - apply weighted_ext. intros t Ht. destruct (H1 t Ht ix (Hshp _ _ Ht)) as [_ He]. rewrite (elt_of _ _ _ He).
    unfold elt. destruct (value t ix); reflexivity.
  - apply weighted_opp. intros t Ht. destruct (H2 t Ht ix (Hshp _ _ Ht)) as [_ He]. rewrite (elt_of _ _ _ He).
    unfold elt. destruct (value t ix); cbn; [reflexivity|]. ring. Qed.

(** ** which irreps are accepted *)
Theorem accepted_irreps elem coeffs st : new elem coeffs = Ok st ->
  (exists mt, In mt elem /\ dget (m_meta (fst mt)) "pg"%string = Some A1) /\
  forall mt, In mt elem -> dget (m_meta (fst mt)) "pg"%string = Some A1 \/ dget (m_meta (fst mt)) "pg"%string = Some A2.
Proof. unfold lcs_new, build_onsite. intros Hn. bind_inv Hn. bind_inv Ha. rename a0 into ts. clear Ha.
  split; [|exact (proj1 (stacked_spec _ _ Ha0))].
  unfold LcIO.stacked in Ha0. bind_inv Ha0. rename a0 into irr. assert (Hf := pgs _ _ Ha).
  assert (H1 : In A1 irr).
  { destruct (set_is irr [A1]) eqn:E1.
    - apply set_is_A1 in E1. destruct E1 as [Hne Hi]. destruct irr as [|i irr]; [congruence|]. left. apply Hi. left; reflexivity.
    - destruct (set_is irr [A1; A2]) eqn:E2; [|discriminate]. apply set_is_A12 in E2. apply E2. }
  clear -Hf H1. induction Hf as [|mt i l irr Hi Hf IH]; [contradiction|]. destruct H1 as [->|H1].
  - exists mt. split; [left; reflexivity|exact Hi].
  - destruct (IH H1) as (x & Hx & Hp). exists x. split; [right; exact Hx|exact Hp]. Qed.
End P.
