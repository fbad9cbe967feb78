(** Proofs about files of linear-combination states: whole states. *)
From Verif Require Import Base BaseLemmas Text TextLemmas Tensor TensorLemmas TensorIO TensorIOSpec
  TensorIOProofs BasisIOProofs StateIO StateIOProofs Lattice LcIO LcIOSpec LcIOProofs.
Open Scope nat_scope.
Open Scope list_scope.
Open Scope res_scope.

Lemma Forall2_map2 {A B C D} (P : C -> D -> Prop) (f : A -> C) (g : B -> D) l l' :
  Forall2 (fun a b => P (f a) (g b)) l l' -> Forall2 P (map f l) (map g l').
Proof. induction 1; cbn; constructor; assumption. Qed.

Lemma Forall2_impl2 {A B} (P Q : A -> B -> Prop) l l' :
  (forall a b, In a l -> P a b -> Q a b) -> Forall2 P l l' -> Forall2 Q l l'.
Proof. intros Hi Hf. induction Hf as [|a b l l' Hab Hf IH]; constructor.
  - apply Hi; [left; reflexivity|exact Hab].
  - apply IH. intros x y Hx. apply Hi; right; exact Hx. Qed.

Lemma Forall2_eq {A} (l l' : list A) : Forall2 eq l l' -> l = l'.
Proof. induction 1; congruence. Qed.

Section P.
Context {R : Type}.
Variables zero one : R.
Variables add mul sub : R -> R -> R.

Notation stacked := (stacked zero one add mul sub).
Notation times_i := (times_i zero one add mul sub).
Notation build := (build_onsite zero one add mul sub).
Notation new := (lcs_new zero one add mul sub).
Notation combine_site := (combine_site zero add mul sub).

Section Rel.
Variable Q : ten R -> ten R -> Prop.
Hypothesis Q_i : forall t t', Q t t' -> Q (times_i t) (times_i t').
Definition rel (a b : lmeta * ten R) : Prop := m_meta (fst b) = m_meta (fst a) /\ Q (snd a) (snd b).

Lemma rel_pg l l' : Forall2 rel l l' -> mapM (fun mt : lmeta * ten R => pg (fst mt)) l' = mapM (fun mt => pg (fst mt)) l.
Proof. induction 1 as [|a b l l' [Hm _] Hf IH]; cbn [mapM]; [reflexivity|]. unfold pg. rewrite Hm.
  destruct (dget_exn (m_meta (fst a)) "pg"%string); [cbn [bind]|reflexivity]. unfold pg in IH. rewrite IH. reflexivity. Qed.

Lemma rel_sel p irr l l' : Forall2 rel l l' -> Forall2 Q
  (map (fun it : string * (lmeta * ten R) => snd (snd it)) (filter (fun it => String.eqb (fst it) p) (combine irr l)))
  (map (fun it : string * (lmeta * ten R) => snd (snd it)) (filter (fun it => String.eqb (fst it) p) (combine irr l'))).
Proof. intros Hf. revert irr. induction Hf as [|a b l l' [_ Hq] Hf IH]; intros [|i irr]; cbn; try constructor.
  destruct (String.eqb i p); cbn; [constructor; [exact Hq|apply IH]|apply IH]. Qed.

Lemma rel_stacked l l' ts : Forall2 rel l l' -> stacked l = Ok ts ->
  exists ts', stacked l' = Ok ts' /\ Forall2 Q ts ts'.
Proof. intros Hf. unfold LcIO.stacked. rewrite (rel_pg _ _ Hf). intros Hs. bind_inv Hs. rename a into irr.
  rewrite Ha. cbn [bind]. destruct (set_is irr ["A_1"%string]).
  - inv Hs. eexists; split; [reflexivity|]. apply Forall2_map2. eapply Forall2_impl2; [|exact Hf].
    intros a b _ [_ Hq]; exact Hq.
  - destruct (set_is irr ["A_1"%string; "A_2"%string]); [|discriminate]. inv Hs. eexists; split; [reflexivity|].
    apply Forall2_app; [apply rel_sel; exact Hf|]. apply Forall2_map2.
    eapply Forall2_impl2; [|apply (rel_sel _ _ _ _ Hf)]. intros a b _ Hq. apply Q_i; exact Hq. Qed.
End Rel.

(** ** the constructor looks at nothing but "meta" *)
Lemma new_meta l l' coeffs st : Forall2 (rel eq) l l' -> new l coeffs = Ok st ->
  new l' coeffs = Ok (mkLC l' coeffs (s_state st)).
Proof. intros Hf. unfold lcs_new, build_onsite. intros Hn. bind_inv Hn. rename a into sites. bind_inv Ha.
  rename a into ts. destruct (rel_stacked eq ltac:(congruence) _ _ _ Hf Ha0) as (ts' & Hs & He).
  apply Forall2_eq in He. subst ts'. rewrite Hs. cbn [bind]. rewrite Ha. cbn [bind]. bind_inv Hn. rewrite Ha1. cbn [bind].
  inv Hn. reflexivity. Qed.

(** ** reordering of the auxiliary indices *)
Section Reorder.
Variable aux : list nat.
Hypothesis Hp : Permutation aux [0;1;2;3].

Definition reo (t t' : ten R) : Prop := reordered_ten aux t t' /\ ten_shape t' = ten_shape t.

Lemma reordered_tmap {A B} (f : A -> B) (t t' : tensor A) : reordered aux t t' -> reordered aux (tmap f t) (tmap f t').
Proof. intros (Hw & Hd & Hg). split; [apply twf_tmap; exact Hw|]. split; [exact Hd|].
  intros i js Hl. rewrite !tget_tmap, Hg by exact Hl. reflexivity. Qed.

Lemma reo_cplx t t' : reo t t' -> reordered aux (to_cplx zero t) (to_cplx zero t') /\
  tdims (to_cplx zero t') = tdims (to_cplx zero t).
Proof. intros [Hr Hs]. destruct t as [t|t], t' as [t'|t']; cbn in *; try contradiction.
  - split; [apply reordered_tmap; exact Hr|exact Hs].
  - split; [exact Hr|exact Hs]. Qed.

Lemma reo_i t t' : reo t t' -> reo (times_i t) (times_i t').
Proof. intros Hr. destruct (reo_cplx _ _ Hr) as [H1 H2]. split; [cbn; apply reordered_tmap; exact H1|].
  cbn. exact H2. Qed.

Lemma reo_shape ts ts' : Forall2 reo ts ts' -> stack_shape ts' = stack_shape ts.
Proof. intros Hf. destruct Hf as [|t t' ts ts' [_ Hs] Hf]; [reflexivity|]. cbn. rewrite Hs.
  replace (forallb (fun t'0 => eqb (ten_shape t'0) (ten_shape t)) ts') with
    (forallb (fun t'0 => eqb (ten_shape t'0) (ten_shape t)) ts); [reflexivity|].
  induction Hf as [|x y l l' [_ Hxy] Hf IH]; [reflexivity|]. cbn. rewrite Hxy, IH. reflexivity. Qed.

Lemma reo_stack_cplx ts ts' : Forall2 reo ts ts' -> stack_cplx ts' = stack_cplx ts.
Proof. unfold stack_cplx. induction 1 as [|t t' ts ts' [Hr _] Hf IH]; [reflexivity|]. cbn. rewrite IH.
  destruct t, t'; cbn in *; try contradiction; reflexivity. Qed.

Lemma pairs_rel {K} (c : list K) (ts ts' : list (tensor K)) (P : tensor K -> tensor K -> Prop) cts :
  Forall2 P ts ts' -> pairs c ts = Ok cts ->
  exists cts', pairs c ts' = Ok cts' /\ Forall2 (fun a b => fst b = fst a /\ P (snd a) (snd b)) cts cts'.
Proof. intros Hf. assert (Hl := Forall2_len _ _ _ Hf).
  assert (Hone : forall x, Forall2 (fun a b : K * tensor K => fst b = fst a /\ P (snd a) (snd b))
     (map (fun t => (x, t)) ts) (map (fun t => (x, t)) ts')).
  { intros x. apply Forall2_map2. eapply Forall2_impl2; [|exact Hf]. cbn; auto. }
  assert (Hall : forall t t', P t t' -> Forall2 (fun a b : K * tensor K => fst b = fst a /\ P (snd a) (snd b))
     (map (fun x => (x, t)) c) (map (fun x => (x, t')) c)).
  { intros t t' Ht. clear -Ht. induction c; cbn; constructor; [cbn; auto|assumption]. }
  assert (Hc : Forall2 (fun a b : K * tensor K => fst b = fst a /\ P (snd a) (snd b)) (combine c ts) (combine c ts')).
  { clear -Hf. revert c. induction Hf as [|t t' ts ts' Ht Hf IH]; intros [|x c]; cbn; constructor; [cbn; auto|apply IH]. }
  unfold pairs. destruct c as [|x [|y c]].
  - destruct Hf as [|t t' ts ts' Ht [|u u' us us' Hu Hf]].
    + intros He; inv He. eexists; split; [reflexivity|constructor].
    + intros He; inv He. eexists; split; [reflexivity|]. exact (Hall t t' Ht).
    + discriminate.
  - intros He; inv He. eexists; split; [reflexivity|apply Hone].
  - destruct Hf as [|t t' ts ts' Ht [|u u' us us' Hu Hf]].
    + discriminate.
    + intros He; inv He. eexists; split; [reflexivity|]. exact (Hall t t' Ht).
    + rewrite Hl. destruct (Nat.eqb _ _); [|discriminate]. intros He; inv He.
      eexists; split; [reflexivity|exact Hc]. Qed.

(** all auxiliary indices have one size *)
Definition box (dims : list nat) : Prop := exists p a, dims = [p; a; a; a; a].

Lemma lincomb_reo {K} (z : K) (pl ti : K -> K -> K) c (ts ts' : list (tensor K)) dims s : box dims ->
  Forall2 (fun t t' => reordered aux t t' /\ tdims t' = tdims t) ts ts' ->
  lincomb z pl ti 5 c ts dims = Ok s ->
  exists s', lincomb z pl ti 5 c ts' dims = Ok s' /\ reordered aux s s' /\ tdims s' = tdims s.
Proof. intros (p & a & Hd) Hf. unfold lincomb. intros Hs. bind_inv Hs. bind_inv Hs. bind_inv Hs. rename a2 into cts.
  rewrite Ha, Ha0. cbn [bind].
  inv Hs. destruct (pairs_rel _ _ _ _ _ Hf Ha1) as (cts' & -> & Hf'). cbn [bind].
  eexists; split; [reflexivity|]. split; [|reflexivity]. split; [apply twf_tbuild|]. split.
  - cbn [tdims tbuild hd tl]. destruct (perm4 _ Hp) as (b & c' & d & e & -> & Hb & Hc & Hd2 & He & _).
    assert (Hn : forall k, k < 4 -> nth k [a; a; a; a] 0 = a).
    { intros [|[|[|[|]]]] Hk; cbn; try reflexivity; lia. }
    cbn [map]. rewrite !Hn by assumption. reflexivity.
  - intros i js Hl. assert (Hl5 : length (i :: js) = 5) by (cbn; rewrite Hl, (Permutation_length Hp); reflexivity).
    change (i :: map (fun k => nth k js 0) aux) with (pick aux (i :: js)).
    assert (Hv : fold_left (fun acc ct => pl acc (ti (fst ct) (at_ z (snd ct) (pick aux (i :: js))))) cts' z =
                 fold_left (fun acc ct => pl acc (ti (fst ct) (at_ z (snd ct) (i :: js)))) cts z).
    { set (z0 := z) at 2 4. clearbody z0. revert z0. clear -Hf' Hl. induction Hf' as [|x y l l' [He [(_ & _ & Hg) _]] Hf IH]; intros w; [reflexivity|].
      cbn [fold_left]. rewrite He. assert (Hg' : at_ z (snd y) (pick aux (i :: js)) = at_ z (snd x) (i :: js)).
      { unfold at_. assert (Hq : tget (snd y) (pick aux (i :: js)) = tget (snd x) (i :: js)) by exact (Hg i js Hl).
        now rewrite Hq. }
      rewrite Hg'. apply IH. }
    destruct (in_dec (list_eq_dec Nat.eq_dec) (i :: js) (indices [p; a; a; a; a])) as [Hin|Hin].
    + apply In_indices in Hin. rewrite !tget_tbuild; [f_equal; exact Hv|exact Hin|].
      apply pick_addresses; [exact Hp|exact Hl5|exact Hin].
    + rewrite !tget_None; [reflexivity| | | |]; try apply twf_tbuild; cbn [tdims tbuild].
      * intros Hx. apply Hin, In_indices. exact Hx.
      * intros Hx. apply Hin, In_indices. apply (pick_addresses aux p a _ Hp Hl5). exact Hx. Qed.

Lemma combine_site_reo cp ts ts' c s dims : box dims -> stack_shape ts = Ok dims -> Forall2 reo ts ts' ->
  combine_site 5 cp ts c = Ok s -> exists s', combine_site 5 cp ts' c = Ok s' /\ reo s s'.
Proof. intros Hb Hsh Hf. unfold LcIO.combine_site. rewrite (reo_shape _ _ Hf), (reo_stack_cplx _ _ Hf), Hsh. cbn [bind].
  set (c' := if cp then TCplx (to_cplx zero c) else c). destruct c' as [c'|c'], (stack_cplx ts) eqn:Esc; try discriminate; intros Hs; bind_inv Hs; inv Hs.
  - destruct (lincomb_reo zero add mul c' (reals ts) (reals ts') dims a Hb) as (s' & -> & Hr & Hd).
    + clear -Hf. unfold reals. apply Forall2_map2. eapply Forall2_impl2; [|exact Hf]. intros t t' _ [Hr Hs].
      destruct t as [t|t], t' as [t'|t']; cbn in *; try contradiction; [split; assumption|].
      split; [apply reordered_tmap; exact Hr|exact Hs].
    + exact Ha.
    + cbn [bind]. eexists; split; [reflexivity|]. split; [exact Hr|exact Hd].
  - destruct (lincomb_reo (czero zero) (cadd2 add) (cmul2 add mul sub) c' (map (to_cplx zero) ts) (map (to_cplx zero) ts') dims a Hb) as (s' & -> & Hr & Hd).
    + apply Forall2_map2. eapply Forall2_impl2; [|exact Hf]. intros t t' _ Hr. apply reo_cplx; exact Hr.
    + exact Ha.
    + cbn [bind]. eexists; split; [reflexivity|]. split; [exact Hr|exact Hd]. Qed.

Lemma stacked_shape_box l ts dims : (forall mt, In mt l -> box (ten_shape (snd mt))) ->
  stacked l = Ok ts -> stack_shape ts = Ok dims -> box dims.
Proof. intros Hl Hs Hd.
  assert (Hb : forall t, In t ts -> box (ten_shape t)).
  { unfold LcIO.stacked in Hs. bind_inv Hs. rename a into irr.
    assert (Hsel : forall p t, In t (map (fun it : string * (lmeta * ten R) => snd (snd it))
       (filter (fun it => String.eqb (fst it) p) (combine irr l))) -> box (ten_shape t)).
    { intros p t Ht. apply in_map_iff in Ht. destruct Ht as ([i mt] & <- & Ht). apply filter_In in Ht.
      destruct Ht as [Ht _]. apply Hl. exact (in_combine_r _ _ _ _ Ht). }
    destruct (set_is irr ["A_1"%string]).
    - inv Hs. intros t Ht. apply in_map_iff in Ht. destruct Ht as (mt & <- & Ht). apply Hl; exact Ht.
    - destruct (set_is irr ["A_1"%string; "A_2"%string]); [|discriminate]. inv Hs.
      intros t Ht. apply in_app_iff in Ht. destruct Ht as [Ht|Ht]; [eapply Hsel; exact Ht|].
      apply in_map_iff in Ht. destruct Ht as (u & <- & Ht). assert (Hu := Hsel _ _ Ht).
      destruct u; exact Hu. }
  destruct ts as [|t ts]; [discriminate|]. cbn in Hd. destruct (forallb _ ts); [|discriminate]. inv Hd.
  apply Hb; left; reflexivity. Qed.

Lemma build_reo l l' coeffs sites : (forall mt, In mt l -> box (ten_shape (snd mt))) -> Forall2 (rel reo) l l' ->
  build l coeffs = Ok sites ->
  exists sites', build l' coeffs = Ok sites' /\ Forall2 (fun a b => fst b = fst a /\ reo (snd a) (snd b)) sites sites'.
Proof. intros Hl Hf. unfold build_onsite. intros Hs. bind_inv Hs. rename a into ts. bind_inv Hs. rename a into dims.
  destruct (rel_stacked reo reo_i _ _ _ Hf Ha) as (ts' & -> & Hts). cbn [bind].
  assert (Hb := stacked_shape_box _ _ _ Hl Ha Ha0).
  rewrite (reo_shape _ _ Hts), Ha0. cbn [bind]. rewrite (reo_stack_cplx _ _ Hts).
  generalize dependent (stack_cplx ts). intros cp Hs. revert sites Hs. induction coeffs as [|[k c] cs IH]; cbn [mapM]; intros sites Hs.
  - inv Hs. exists []. split; [reflexivity|constructor].
  - bind_inv Hs. bind_inv Ha1. inv Ha1. bind_inv Hs. inv Hs. cbn [snd fst] in *.
    destruct (combine_site_reo cp ts ts' c a0 dims Hb Ha0 Hts Ha2) as (s' & -> & Hr). cbn [bind].
    destruct (IH _ Ha1) as (sites' & -> & Hss). cbn [bind]. eexists; split; [reflexivity|].
    constructor; [cbn; auto|exact Hss]. Qed.

Lemma init_reo (sites sites' : dict coord (ten R)) st : Forall2 (fun a b => fst b = fst a /\ reo (snd a) (snd b)) sites sites' ->
  ipeps_init (T := ten R) (L := string) ten_cplx ten_device (Some sites) None None None None = Ok st ->
  exists st', ipeps_init (T := ten R) (L := string) ten_cplx ten_device (Some sites') None None None None = Ok st' /\
    i_sites st = Some sites /\ i_sites st' = Some sites' /\ i_lX st' = i_lX st /\ i_lY st' = i_lY st /\
    forall v, i_v2s st' v = i_v2s st v.
Proof. intros Hf.
  assert (Hk : dkeys sites' = dkeys sites).
  { unfold dkeys. induction Hf as [|a b l l' [He _] Hf IH]; cbn; [reflexivity|]. now rewrite He, IH. }
  assert (Hu : uniform (T := ten R) ten_cplx ten_device sites' = uniform (T := ten R) ten_cplx ten_device sites).
  { assert (H1 : map (@ten_cplx R) (dvals sites') = map (@ten_cplx R) (dvals sites)).
    { unfold dvals. clear Hk. induction Hf as [|a b l l' [_ [He _]] Hf IH]; cbn; [reflexivity|]. rewrite IH. f_equal.
      destruct (snd a), (snd b); cbn in *; try contradiction; reflexivity. }
    assert (H2 : map (@ten_device R) (dvals sites') = map (@ten_device R) (dvals sites)).
    { unfold dvals. clear Hk H1. induction Hf as [|a b l l' _ Hf IH]; cbn; [reflexivity|]. now rewrite IH. }
    unfold uniform. rewrite H1, H2. reflexivity. }
  unfold ipeps_init. destruct Hf as [|a b l l' Hab Hf].
  - cbn. discriminate.
  - cbn [sites_truthy]. rewrite Hu. intros Hs. bind_inv Hs. rename a0 into ms. bind_inv Ha. inv Ha.
    rewrite Ha0. cbn [bind]. unfold init_size in *. cbn [pat_truthy sites_truthy] in *. rewrite Hk.
    bind_inv Hs. rewrite Ha. cbn [bind]. destruct a1 as [x y]. inv Hs. eexists; split; [reflexivity|]. cbn. auto. Qed.

Lemma new_reo l l' coeffs st : (forall mt, In mt l -> box (ten_shape (snd mt))) -> Forall2 (rel reo) l l' ->
  new l coeffs = Ok st ->
  exists st' sites sites', new l' coeffs = Ok st' /\ s_elem st' = l' /\ s_coeffs st' = coeffs /\
    i_sites (s_state st) = Some sites /\ i_sites (s_state st') = Some sites' /\
    Forall2 (fun a b => fst b = fst a /\ reordered_ten aux (snd a) (snd b)) sites sites' /\
    i_lX (s_state st') = i_lX (s_state st) /\ i_lY (s_state st') = i_lY (s_state st) /\
    forall v, i_v2s (s_state st') v = i_v2s (s_state st) v.
Proof. intros Hl Hf. unfold lcs_new. intros Hs. bind_inv Hs. rename a into sites.
  destruct (build_reo _ _ _ _ Hl Hf Ha) as (sites' & -> & Hss). cbn [bind]. bind_inv Hs. inv Hs.
  destruct (init_reo _ _ _ Hss Ha0) as (st' & Hst & H1 & H2 & H3 & H4 & H5). rewrite Hst. cbn [bind s_state].
  exists (mkLC l' coeffs st'), sites, sites'. cbn [s_elem s_coeffs s_state]. repeat split; try assumption.
  eapply Forall2_impl2; [|exact Hss]. intros x y _ [Hxy [Hr _]]. split; assumption. Qed.
End Reorder.
End P.
