From Verif Require Import Base BaseLemmas Tensor TensorLemmas Extend ExtendSpec.
Open Scope nat_scope.
Open Scope list_scope.

Lemma in_rangeb_spec dims ix : in_rangeb dims ix = true <-> in_range dims ix.
Proof. revert ix; induction dims as [|d ds IH]; intros [|i ix]; cbn [in_rangeb]; split; intros H; try discriminate; try (inv H; fail).
  - constructor.
  - reflexivity.
  - apply andb_true_iff in H as [H1 H2]. apply Nat.ltb_lt in H1. constructor; [exact H1|]. now apply IH.
  - inv H. apply andb_true_iff; split; [now apply Nat.ltb_lt|now apply IH]. Qed.

Lemma bcast_id vd ix : in_range vd ix -> bcast vd ix = ix.
Proof. induction 1 as [|d i vd ix H1 H2 IH]; cbn [bcast]; [reflexivity|].
  rewrite IH. destruct (Nat.eqb_spec d 1); [f_equal; lia|reflexivity]. Qed.
Lemma broadcastable_refl vd : broadcastable vd vd = true.
Proof. induction vd as [|a vd IH]; cbn; [reflexivity|]. now rewrite Nat.eqb_refl, IH. Qed.


Section P.
Context {K : Type} (z : K).
Implicit Types (t v : tensor K).

Lemma tset_spec cv t ks v : twf t -> twf v -> length ks <= length (tdims t) -> tdims v = slice_dims (tdims t) ks ->
  exists t', tset_slice z cv t ks v = Ok t' /\ twf t' /\ tdims t' = tdims t /\
    forall ix, in_range (tdims t) ix ->
      tget t' ix = Some (match tget v ix with Some x => cv x | None => tval z t ix end).
Proof. intros Ht Hv Hl Hd. unfold tset_slice. apply Nat.leb_le in Hl. rewrite Hl, <- Hd, broadcastable_refl.
  eexists; split; [reflexivity|]. split; [apply twf_tbuild|]. split; [reflexivity|].
  intros ix Hr. rewrite tget_tbuild by exact Hr. f_equal.
  destruct (in_rangeb (tdims v) ix) eqn:E.
  - apply in_rangeb_spec in E. rewrite (bcast_id _ _ E). unfold tval. now destruct (tget_Some v ix Hv E) as [x ->].
  - rewrite (tget_None v ix Hv); [reflexivity|]. intros C. apply in_rangeb_spec in C. congruence. Qed.

Lemma tslice_spec t ks : twf t -> length ks <= length (tdims t) ->
  exists v, tslice z t ks = Ok v /\ twf v /\ tdims v = slice_dims (tdims t) ks /\
    forall ix, in_range (slice_dims (tdims t) ks) ix -> tget v ix = Some (tval z t ix).
Proof. intros Ht Hl. unfold tslice. apply Nat.leb_le in Hl. rewrite Hl.
  eexists; split; [reflexivity|]. split; [apply twf_tbuild|]. split; [reflexivity|].
  intros ix Hr. now rewrite tget_tbuild. Qed.

Lemma zeros_val dims ix : tval z (tzeros z dims) ix = z.
Proof. unfold tval. destruct (in_rangeb dims ix) eqn:E.
  - apply in_rangeb_spec in E. now rewrite tget_tzeros.
  - rewrite tget_None; [reflexivity|apply twf_tzeros|]. intros C. cbn in C. apply in_rangeb_spec in C. congruence. Qed.

(** slice of [t] written into zeros *)
Lemma copy_padded cv t dims' ks : twf t ->
  length ks <= length dims' -> length ks <= length (tdims t) ->
  slice_dims (tdims t) ks = slice_dims dims' ks ->
  (forall ix, in_range dims' ix -> (in_range (slice_dims dims' ks) ix <-> in_range (tdims t) ix)) ->
  exists t', (v <- tslice z t ks ;; tset_slice z cv (tzeros z dims') ks v)%res = Ok t' /\ padded z (tmap cv t) dims' t'.
Proof. intros Ht L1 L2 Hs Hr. destruct (tslice_spec t ks Ht L2) as (v & Ev & Wv & Dv & Gv). rewrite Ev. cbn [bind].
  destruct (tset_spec cv (tzeros z dims') ks v (twf_tzeros z dims') Wv L1 ltac:(now rewrite Dv)) as (t' & E & W & D & G).
  exists t'. split; [exact E|]. split; [exact W|]. split; [exact D|].
  intros ix Hix. rewrite (G ix Hix). f_equal. rewrite tget_tmap, zeros_val.
  destruct (in_rangeb (tdims t) ix) eqn:B.
  - apply in_rangeb_spec in B. rewrite Gv by (rewrite Hs; now apply Hr). unfold tval.
    now destruct (tget_Some t ix Ht B) as [x ->].
  - rewrite (tget_None t ix), (tget_None v ix); [reflexivity|exact Wv| |exact Ht|].
    + rewrite Dv, Hs. intros C. apply Hr in C; [|exact Hix]. apply in_rangeb_spec in C. congruence.
    + intros C. apply in_rangeb_spec in C. congruence. Qed.

Lemma storable_map cv t : storable cv t -> tmap cv t = t.
Proof. destruct t as [d l]. unfold storable, tmap; cbn. intros H. f_equal.
  induction H as [|a l Ha Hl IH]; cbn; congruence. Qed.

(** ** extend_bond_dim *)
Section Site.
Variables (re : K -> K) (dt : dtype).

Lemma range5 (a b : list nat) : Forall2 le a b -> forall ix, in_range a ix -> in_range b ix.
Proof. induction 1; intros ix Hx; inv Hx; constructor; [lia|]. now apply IHForall2. Qed.

Lemma extend_site_small D t : (exists d, In d (tl (tdims t)) /\ D < d) -> extend_site z re dt D t = Err ValueError.
Proof. intros (d & Hi & Hd). unfold extend_site.
  assert (E : existsb (fun d => negb (d <=? D)) (tl (tdims t)) = true) by
    (apply existsb_exists; exists d; split; [exact Hi|apply negb_true_iff, Nat.leb_gt; exact Hd]).
  now rewrite E. Qed.

Lemma extend_site_ok D t d0 d1 d2 d3 d4 : twf t -> tdims t = [d0; d1; d2; d3; d4] -> Forall (fun d => d <= D) [d1; d2; d3; d4] ->
  exists t', extend_site z re dt D t = Ok t' /\ padded z (tmap (cast re dt) t) [d0; D; D; D; D] t'.
Proof. intros Ht Hd HD. unfold extend_site. rewrite Hd. cbn [tl].
  assert (E : existsb (fun d => negb (d <=? D)) [d1; d2; d3; d4] = false).
  { destruct (existsb _ _) eqn:E; [|reflexivity]. apply existsb_exists in E as (d & Hi & Hn).
    rewrite Forall_forall in HD. specialize (HD d Hi). apply negb_true_iff, Nat.leb_gt in Hn. lia. }
  rewrite E. inv HD. inv H2. inv H4. inv H5. clear H6.
  edestruct (tset_spec (cast re dt) (tzeros z [d0; D; D; D; D]) [None; Some d1; Some d2; Some d3; Some d4] t) as (t' & E' & W & D' & G).
  { apply twf_tzeros. } { exact Ht. } { cbn; lia. }
  { rewrite Hd. cbn. repeat (f_equal; try lia). }
  exists t'. split; [exact E'|]. split; [exact W|]. split; [exact D'|].
  intros ix Hix. rewrite (G ix Hix), tget_tmap, zeros_val. now destruct (tget t ix). Qed.

Lemma extend_site_ok' D t : rank5 t -> aux_le D t ->
  exists t', extend_site z re dt D t = Ok t' /\ padded z (tmap (cast re dt) t) (new_dims D t) t'.
Proof. intros [W L] A. destruct t as [[|d0 [|d1 [|d2 [|d3 [|d4 [|]]]]]] l]; cbn in L; try discriminate.
  apply (extend_site_ok D _ d0 d1 d2 d3 d4); [exact W|reflexivity|exact A]. Qed.

Lemma aux_le_dec D t : {aux_le D t} + {exists d, In d (tl (tdims t)) /\ D < d}.
Proof. unfold aux_le. induction (tl (tdims t)) as [|d l IH]; [left; constructor|].
  destruct IH as [IH|IH]; [|right; destruct IH as (e & He & Hl); exists e; split; [now right|exact Hl]].
  destruct (le_lt_dec d D); [left; now constructor|right; exists d; split; [now left|assumption]]. Qed.

Lemma extend_loop_ok D todo : forall sites, NoDup (dkeys todo) -> (forall c, In c (dkeys todo) -> In c (dkeys sites)) ->
  Forall (fun ct => rank5 (snd ct) /\ aux_le D (snd ct)) todo ->
  exists sites', extend_loop z re dt D todo sites = (sites', Ok tt) /\ dkeys sites' = dkeys sites /\
    (forall c, ~ In c (dkeys todo) -> dget sites' c = dget sites c) /\
    (forall c t, In (c, t) todo -> exists t', dget sites' c = Some t' /\ padded z (tmap (cast re dt) t) (new_dims D t) t').
Proof. induction todo as [|[c t] todo IH]; intros sites Hn Hk Hf; cbn [extend_loop].
  - exists sites. split; [reflexivity|]. split; [reflexivity|]. split; [reflexivity|]. intros c t [].
  - inversion Hf as [|? ? [R A] Hf']; subst. cbn in Hn. inversion Hn as [|? ? Hc Hn']; subst.
    destruct (extend_site_ok' D t R A) as (t' & E & P). rewrite E.
    assert (Kd : dkeys (dset sites c t') = dkeys sites) by (apply dkeys_dset_old, Hk; now left).
    destruct (IH (dset sites c t') Hn') as (s' & E' & K' & O' & N').
    { intros c' Hc'. rewrite Kd. apply Hk. now right. } { exact Hf'. }
    exists s'. split; [exact E'|]. split; [congruence|]. split.
    + intros c' Hc'. rewrite O' by (intros C; apply Hc'; now right). apply dget_dset_other. intros ->. apply Hc'; now left.
    + intros c' u [[= <- <-]|Hi]; [|now apply N'].
      exists t'. split; [|exact P]. rewrite O' by exact Hc. apply dget_dset_same. Qed.

Lemma extend_loop_err D todo : forall sites, Forall (fun ct => rank5 (snd ct)) todo ->
  Exists (fun ct => exists d, In d (tl (tdims (snd ct))) /\ D < d) todo ->
  snd (extend_loop z re dt D todo sites) = Err ValueError.
Proof. induction todo as [|[c t] todo IH]; intros sites Hf He; [inv He|]. cbn [extend_loop].
  inversion Hf as [|? ? R Hf']; subst.
  destruct (aux_le_dec D t) as [A|A].
  - destruct (extend_site_ok' D t R A) as (t' & E & P). rewrite E. apply IH; [exact Hf'|].
    inversion He as [? ? (d & Hi & Hd)|]; subst; [|assumption].
    exfalso. unfold aux_le in A. rewrite Forall_forall in A. specialize (A d Hi). lia.
  - now rewrite extend_site_small by exact A. Qed.

Lemma In_of_state (sites : dict coord (tensor K)) (P : tensor K -> Prop) : NoDup (dkeys sites) ->
  (forall c t, dget sites c = Some t -> P t) -> Forall (fun ct => P (snd ct)) sites.
Proof. intros Hn H. apply Forall_forall. intros [c t] Hi. apply (H c). now apply In_dget. Qed.

Lemma extend_ok D sites : good_state re dt sites ->
  (forall c t, dget sites c = Some t -> aux_le D t) ->
  exists sites', extend_bond_dim z re dt sites D = (sites', Ok tt) /\ dkeys sites' = dkeys sites /\
    forall c t, dget sites c = Some t -> exists t', dget sites' c = Some t' /\ padded z t (new_dims D t) t'.
Proof. intros [Hn Hg] Ha. unfold extend_bond_dim.
  destruct (extend_loop_ok D sites sites Hn (fun c H => H)) as (s' & E & Kd & _ & N).
  { apply (In_of_state sites (fun t => rank5 t /\ aux_le D t)); [exact Hn|]. intros c t H. split; [now apply (Hg c)|now apply (Ha c)]. }
  exists s'. split; [exact E|]. split; [exact Kd|]. intros c t H.
  destruct (N c t (dget_In _ _ _ H)) as (t' & G & P). exists t'. split; [exact G|].
  rewrite storable_map in P; [exact P|]. now apply (Hg c). Qed.

Lemma extend_err D sites c t d : good_state re dt sites -> dget sites c = Some t -> In d (tl (tdims t)) -> D < d ->
  snd (extend_bond_dim z re dt sites D) = Err ValueError.
Proof. intros [Hn Hg] H Hi Hd. apply extend_loop_err.
  - apply (In_of_state sites rank5); [exact Hn|]. intros c' t' H'. now apply (Hg c').
  - apply Exists_exists. exists (c, t). split; [now apply dget_In|]. exists d. now split. Qed.
End Site.

(** ** contractions *)
Lemma filter_indices bs : forall bs', Forall2 le bs bs' -> filter (in_rangeb bs) (indices bs') = indices bs.
Proof. induction bs as [|b bs IH]; intros bs' H; inversion H as [|? b' ? bs'' Hb Hbs]; subst; [reflexivity|].
  cbn [indices]. specialize (IH _ Hbs).
  assert (G : forall l, filter (in_rangeb (b :: bs)) (flat_map (fun i => map (cons i) (indices bs'')) l) =
                   flat_map (fun i => map (cons i) (indices bs)) (filter (fun i => i <? b) l)).
  { induction l as [|i l IHl]; [reflexivity|]. cbn [flat_map]. rewrite filter_app, IHl. cbn [filter].
    assert (F : filter (in_rangeb (b :: bs)) (map (cons i) (indices bs'')) = if i <? b then map (cons i) (indices bs) else []).
    { rewrite <- IH. clear. induction (indices bs'') as [|x l IHl]; [now destruct (i <? b)|].
      cbn [map filter]. rewrite IHl. cbn [in_rangeb]. destruct (i <? b); cbn [andb]; [|reflexivity]. now destruct (in_rangeb bs x). }
    rewrite F. now destruct (i <? b). }
  rewrite G. f_equal. clear - Hb.
  replace b' with (b + (b' - b)) by lia. rewrite seq_app, filter_app.
  assert (A : forall n m, n + m <= b -> filter (fun i => i <? b) (seq n m) = seq n m).
  { intros n m; revert n; induction m as [|m IH]; intros n Hm; [reflexivity|]. cbn [seq filter].
    rewrite (proj2 (Nat.ltb_lt n b)) by lia. f_equal. apply IH. lia. }
  assert (B : forall m n, b <= n -> filter (fun i => i <? b) (seq n m) = []).
  { induction m as [|m IH]; intros n Hm; [reflexivity|]. cbn [seq filter].
    rewrite (proj2 (Nat.ltb_ge n b)) by lia. apply IH. lia. }
  rewrite (A 0 b), (B _ (0 + b)) by lia. now rewrite app_nil_r. Qed.

Section Contract.
Variables (add mul : K -> K -> K) (one : K).
Hypothesis add0 : forall x, add z x = x.
Hypothesis mul0 : forall x, mul z x = z.
Hypothesis mul0r : forall x, mul x z = z.

Lemma ksum_filter {A} (p : A -> bool) (f : A -> K) l : (forall a, In a l -> p a = false -> f a = z) ->
  ksum z add (map f l) = ksum z add (map f (filter p l)).
Proof. induction l as [|a l IH]; intros H; [reflexivity|]. cbn [map filter].
  assert (E : ksum z add (map f l) = ksum z add (map f (filter p l))) by (apply IH; intros; apply H; [now right|assumption]).
  destruct (p a) eqn:P; cbn [map ksum fold_right]; fold (ksum z add (map f l)).
  - rewrite E. reflexivity.
  - rewrite (H a (or_introl eq_refl) P), add0. exact E. Qed.

Lemma kprod_zero l : In z l -> kprod mul one l = z.
Proof. induction l as [|a l IH]; [intros []|]. intros [->|H]; cbn [kprod fold_right]; [apply mul0|].
  fold (kprod mul one l). rewrite (IH H). apply mul0r. Qed.

Lemma leg_range bd dims legs ix : Forall2 (fits_leg bd) dims legs -> in_range bd ix -> in_range dims (map (leg_index ix) legs).
Proof. intros H Hix. induction H as [|d l dims legs Hf H IH]; [constructor|]. cbn. constructor; [|exact IH].
  destruct l as [b|i]; cbn in Hf |- *; [|exact Hf]. apply in_range_nth in Hix as [Hl Hx].
  assert (Hb : b < length bd) by (apply nth_error_Some; congruence).
  specialize (Hx b Hb). apply (nth_error_nth _ _ 0) in Hf. lia. Qed.

Definition ext_pair (tl tl' : tensor K * list leg) : Prop :=
  snd tl = snd tl' /\ twf (fst tl) /\ Forall2 le (tdims (fst tl)) (tdims (fst tl')) /\
  padded z (fst tl) (tdims (fst tl')) (fst tl').

Lemma contract_ext bd bd' net net' : Forall2 ext_pair net net' -> well_formed_net bd net -> well_formed_net bd' net' ->
  length bd = length bd' -> contract z add mul one bd net = contract z add mul one bd' net'.
Proof. intros HE [W1 W2] [W1' W2'] Hl.
  assert (Bond_le : Forall2 le bd bd').
  { assert (N : forall b d, nth_error bd b = Some d -> exists d', nth_error bd' b = Some d' /\ d <= d').
    { intros b d Hb. assert (Lb : b < length bd) by (apply nth_error_Some; congruence).
      destruct (W2 b Lb) as ([t legs] & Hi & Hb2). cbn in Hb2.
      rewrite Forall_forall in W1, W1'.
      assert (X : exists t', In (t', legs) net' /\ Forall2 le (tdims t) (tdims t')).
      { clear - HE Hi. induction HE as [|x y net net' Hxy HE IH]; [destruct Hi|]. destruct Hi as [->|Hi].
        - destruct y as [t' legs']. destruct Hxy as (Hs & _ & Hle & _). cbn in *. subst legs'. exists t'. split; [now left|exact Hle].
        - destruct (IH Hi) as (t' & H1 & H2). exists t'. split; [now right|exact H2]. }
      destruct X as (t' & Hi' & Hle). specialize (W1 _ Hi). specialize (W1' _ Hi'). cbn in W1, W1'.
      clear - W1 W1' Hle Hb Hb2. revert legs W1 W1' Hb2. induction Hle as [|x y l l' Hxy Hle IH]; intros legs W1 W1' Hb2.
      - inv W1. destruct Hb2.
      - inversion W1 as [|? a ? legs0 F1 F2]; subst. inversion W1' as [|? a' ? legs1 G1 G2]; subst.
        destruct Hb2 as [->|Hb2].
        + cbn in F1, G1. exists y. split; [exact G1|]. congruence.
        + now apply (IH legs0). }
    clear - N Hl. revert bd' N Hl. induction bd as [|b bd IH]; intros [|b' bd'] N Hl; try discriminate; constructor.
    - destruct (N 0 b eq_refl) as (d' & [= <-] & H). exact H.
    - apply IH; [|cbn in Hl; lia]. intros k d H. exact (N (S k) d H). }
  unfold contract. symmetry. rewrite (ksum_filter (in_rangeb bd)).
  - rewrite filter_indices by exact Bond_le. f_equal. apply map_ext_in. intros ix Hix. apply In_indices in Hix.
    f_equal. pose proof (range5 _ _ Bond_le ix Hix) as Hix'. clear - HE W1' Hix'.
    induction HE as [|x y net net' Hxy HE IH]; [reflexivity|]. inversion W1' as [|? ? F F']; subst. cbn [map].
    rewrite (IH F'). f_equal. destruct Hxy as (Hs & _ & _ & (_ & _ & P)). rewrite Hs. unfold elem.
    now rewrite (P _ (leg_range _ _ _ _ F Hix')).
  - intros ix Hix Hout. apply In_indices in Hix. apply kprod_zero.
    assert (X : exists b, b < length bd /\ nth b bd 0 <= nth b ix 0).
    { pose proof (in_range_length _ _ Hix) as Hlen. rewrite <- Hl in Hlen. clear - Hout Hlen. revert ix Hout Hlen.
      induction bd as [|b bd IH]; intros [|i ix] Hout Hlen; cbn in Hlen; try discriminate.
      cbn [in_rangeb] in Hout. destruct (i <? b) eqn:E; cbn [andb] in Hout.
      - destruct (IH ix Hout ltac:(lia)) as (k & H1 & H2). exists (S k). cbn. split; [lia|exact H2].
      - apply Nat.ltb_ge in E. exists 0. cbn. split; [lia|exact E]. }
    destruct X as (b & Hb & Hge). destruct (W2 b Hb) as ([t legs] & Hi & Hb2). cbn in Hb2.
    assert (X : exists t', In (t', legs) net' /\ twf t /\ padded z t (tdims t') t').
    { clear - HE Hi. induction HE as [|x y net net' Hxy HE IH]; [destruct Hi|]. destruct Hi as [->|Hi].
      - destruct y as [t' legs']. destruct Hxy as (Hs & Ht & _ & HP). cbn in *. subst legs'. exists t'. split; [now left|]. now split.
      - destruct (IH Hi) as (t' & H1 & H2). exists t'. split; [now right|exact H2]. }
    destruct X as (t' & Hi' & Ht & (_ & _ & P)).
    apply in_map_iff. exists (t', legs). split; [|exact Hi']. cbn [fst snd]. unfold elem.
    rewrite Forall_forall in W1, W1'. specialize (W1 _ Hi). specialize (W1' _ Hi'). cbn in W1, W1'.
    rewrite (P _ (leg_range _ _ _ _ W1' Hix)). rewrite tget_None; [reflexivity|exact Ht|].
    intros C. clear - W1 C Hb2 Hge. revert C Hb2. induction W1 as [|d l dims legs F W IH]; intros C Hb2; [destruct Hb2|].
    cbn in C. inversion C as [|? ? ? ? H1 H2]; subst. destruct Hb2 as [->|Hb2]; [|now apply IH].
    cbn in F, H1. apply (nth_error_nth _ _ 0) in F. lia. Qed.
End Contract.

(** networks drawn from a state *)
Section StateNet.
Variables (add mul : K -> K -> K) (one : K) (conj : K -> K).
Hypothesis add0 : forall x, add z x = x.
Hypothesis mul0 : forall x, mul z x = z.
Hypothesis mul0r : forall x, mul x z = z.
Hypothesis conj0 : conj z = z.
Variables (re : K -> K) (dt : dtype).

Lemma padded_conj t dims' t' : padded z t dims' t' -> padded z (tmap conj t) dims' (tmap conj t').
Proof. intros (W & D & G). split; [now apply twf_tmap|]. split; [exact D|]. intros ix Hx.
  rewrite !tget_tmap, (G ix Hx). cbn. destruct (tget t ix); cbn; congruence. Qed.

Lemma extend_contract D sites sites' lab bd bd' : good_state re dt sites ->
  extend_bond_dim z re dt sites D = (sites', Ok tt) ->
  (forall c cj legs, In (c, cj, legs) lab -> In c (dkeys sites)) ->
  well_formed_net bd (state_net conj sites lab) -> well_formed_net bd' (state_net conj sites' lab) -> length bd = length bd' ->
  contract z add mul one bd' (state_net conj sites' lab) = contract z add mul one bd (state_net conj sites lab).
Proof. intros Hg E Hk W W' Hl. symmetry. apply contract_ext; try assumption. clear W W' Hl.
  assert (Ha : forall c t, dget sites c = Some t -> aux_le D t).
  { intros c t H. destruct (aux_le_dec D t) as [A|(d & Hi & Hd)]; [exact A|].
    pose proof (extend_err re dt D sites c t d Hg H Hi Hd) as X. rewrite E in X. discriminate X. }
  destruct (extend_ok re dt D sites Hg Ha) as (s' & E' & _ & P). assert (s' = sites') by congruence. subst s'.
  induction lab as [|[[c cj] legs] lab IH]; [constructor|]. cbn. constructor.
  - destruct (proj1 (dget_Some_key sites c) (Hk c cj legs (or_introl eq_refl))) as [t Ht]. rewrite Ht.
    destruct (P c t Ht) as (t' & Ht' & Pd). rewrite Ht'. destruct Hg as [_ Hg]. destruct (Hg c t Ht) as [[Wt Lt] _].
    pose proof (Ha c t Ht) as A. destruct Pd as (Pw & Pd & Pg).
    assert (L : Forall2 le (tdims t) (tdims t')).
    { rewrite Pd. unfold new_dims. destruct t as [[|d0 [|d1 [|d2 [|d3 [|d4 [|]]]]]] l]; cbn in Lt; try discriminate.
      cbn in A |- *. inv A. inv H2. inv H4. inv H5. repeat constructor; assumption. }
    unfold ext_pair. destruct cj; cbn [fst snd].
    + split; [reflexivity|]. split; [now apply twf_tmap|]. split; [exact L|]. apply padded_conj. split; [exact Pw|]. split; [reflexivity|].
      cbn [tmap tdims]. rewrite Pd. exact Pg.
    + split; [reflexivity|]. split; [exact Wt|]. split; [exact L|]. split; [exact Pw|]. split; [reflexivity|]. rewrite Pd. exact Pg.
  - apply IH. intros c' cj' l' H. apply (Hk c' cj' l'). now right. Qed.
End StateNet.

(** ** ENV.extend *)
Section EnvExt.
Variable re : K -> K.

Ltac rng := repeat match goal with
  | H : Forall2 _ (_ :: _) _ |- _ => inversion H; clear H; subst
  | H : Forall2 _ [] _ |- _ => inversion H; clear H; subst end.

Lemma extend_C_ok dt chi nc t : twf t -> tdims t = c_dims chi ->
  exists t', extend_C z re dt (Nat.min chi nc) nc t = Ok t' /\ padded z (tmap (cast re dt) t) (c_dims nc) t'.
Proof. intros W D. unfold extend_C, c_dims in *. apply copy_padded; try (rewrite ?D; cbn [length]; lia); [exact W| |].
  - rewrite D. cbn. repeat (f_equal; try lia).
  - intros ix Hx. rewrite D. unfold in_range in *. cbn. split; intros Hy; rng; repeat constructor; lia. Qed.

Lemma extend_T_ok dt chi nc dir n t : twf t -> t_dims dir chi n = Some (tdims t) ->
  exists t' d', extend_T z re dt (Nat.min chi nc) nc dir t = Ok t' /\ t_dims dir nc n = Some d' /\ padded z (tmap (cast re dt) t) d' t'.
Proof. intros W. unfold t_dims, extend_T.
  assert (G : forall ks d', length ks <= length d' -> length ks <= length (tdims t) ->
     slice_dims (tdims t) ks = slice_dims d' ks ->
     (forall ix, in_range d' ix -> (in_range (slice_dims d' ks) ix <-> in_range (tdims t) ix)) ->
     exists t' d'', (v <- tslice z t ks ;; tset_slice z (cast re dt) (tzeros z d') ks v)%res = Ok t' /\ Some d' = Some d'' /\ padded z (tmap (cast re dt) t) d'' t').
  { intros ks d' L1 L2 S1 S2. destruct (copy_padded (cast re dt) t d' ks W L1 L2 S1 S2) as (t' & E & P).
    exists t', d'. split; [exact E|]. now split. }
  assert (F : forall ks d' d, tdims t = d -> length ks <= length d' -> length ks <= length d ->
     slice_dims d ks = slice_dims d' ks ->
     (forall ix, in_range d' ix -> (in_range (slice_dims d' ks) ix <-> in_range d ix)) ->
     exists t' d'', (v <- tslice z t ks ;; tset_slice z (cast re dt) (tzeros z d') ks v)%res = Ok t' /\ Some d' = Some d'' /\ padded z (tmap (cast re dt) t) d'' t').
  { intros ks d' d <-. apply G. }
  clear G.
  assert (A : forall (p q r : option nat) a b c a' b' c', tdims t = [a; b; c] ->
     slice_dim a p = slice_dim a' p -> slice_dim b q = slice_dim b' q -> slice_dim c r = slice_dim c' r ->
     (forall i, i < a' -> (i < slice_dim a' p <-> i < a)) -> (forall i, i < b' -> (i < slice_dim b' q <-> i < b)) ->
     (forall i, i < c' -> (i < slice_dim c' r <-> i < c)) ->
     exists t' d'', (v <- tslice z t [p; q; r] ;; tset_slice z (cast re dt) (tzeros z [a'; b'; c']) [p; q; r] v)%res = Ok t' /\ Some [a'; b'; c'] = Some d'' /\ padded z (tmap (cast re dt) t) d'' t').
  { intros p q r a b c a' b' c' D E1 E2 E3 I1 I2 I3. apply (F _ _ _ D); [cbn; lia|cbn; lia|cbn [slice_dims]; congruence|].
    intros ix Hx. cbn [slice_dims]. unfold in_range in *. rng. specialize (I1 _ H1). specialize (I2 _ H2). specialize (I3 _ H3).
    split; intros Hy; rng; repeat (apply Forall2_cons; [tauto|]); apply Forall2_nil. }
  clear F.
  destruct (eqb dir (0, -1)%Z) eqn:E1; cbn [orb].
  { intros [= D]; symmetry in D; rewrite D; cbn [nth_error bind]. apply (A _ _ _ chi n chi); [exact D|cbn [slice_dim]..]; intros; lia. }
  destruct (eqb dir (-1, 0)%Z) eqn:E2.
  { apply (eqb_true dir) in E2. subst dir. change (eqb (-1, 0)%Z (1, 0)%Z) with false. cbv iota.
    intros [= D]; symmetry in D; rewrite D; cbn [nth_error bind]. apply (A _ _ _ chi chi n); [exact D|cbn [slice_dim]..]; intros; lia. }
  destruct (eqb dir (0, 1)%Z) eqn:E3.
  { apply (eqb_true dir) in E3. subst dir. change (eqb (0, 1)%Z (1, 0)%Z) with false. cbv iota.
    intros [= D]; symmetry in D; rewrite D; cbn [nth_error bind]. apply (A _ _ _ n chi chi); [exact D|cbn [slice_dim]..]; intros; lia. }
  destruct (eqb dir (1, 0)%Z) eqn:E4; [|discriminate].
  intros [= D]; symmetry in D; rewrite D; cbn [nth_error bind]. apply (A _ _ _ chi n chi); [exact D|cbn [slice_dim]..]; intros; lia. Qed.

Lemma env_extend_ok gdt nc e : env_good re e ->
  exists e', env_extend z re gdt nc e = Ok e' /\ x_chi e' = nc /\
    Forall2 (c_resized z nc) (x_C e) (x_C e') /\ Forall2 (t_resized z (x_chi e) nc) (x_T e) (x_T e').
Proof. intros [HC HT]. unfold env_extend.
  assert (X : exists C, mapM (fun kc : coord * coord * tensor K => (c <- extend_C z re (x_dt e) (Nat.min (x_chi e) nc) nc (snd kc) ;; Ok (fst kc, c))%res) (x_C e) = Ok C
     /\ Forall2 (c_resized z nc) (x_C e) C).
  { induction HC as [|[k c] l [[W D] St] HC IH]; [exists []; split; [reflexivity|constructor]|].
    destruct IH as (C & EC & FC). destruct (extend_C_ok (x_dt e) (x_chi e) nc c W D) as (c' & E & P).
    cbn [fst snd] in St; rewrite (storable_map _ _ St) in P. exists ((k, c') :: C). cbn [mapM fst snd]. rewrite E. cbn [bind]. rewrite EC.
    split; [reflexivity|]. constructor; [|exact FC]. split; [reflexivity|exact P]. }
  destruct X as (C & EC & FC). rewrite EC. cbn [bind].
  assert (X : exists T, mapM (fun kt : coord * coord * tensor K => (t <- extend_T z re (x_dt e) (Nat.min (x_chi e) nc) nc (snd (fst kt)) (snd kt) ;; Ok (fst kt, t))%res) (x_T e) = Ok T
     /\ Forall2 (t_resized z (x_chi e) nc) (x_T e) T).
  { induction HT as [|[k t] l [[W (n & D)] St] HT IH]; [exists []; split; [reflexivity|constructor]|].
    destruct IH as (T & ET & FT). cbn [fst snd] in *. destruct (extend_T_ok (x_dt e) (x_chi e) nc (snd k) n t W D) as (t' & d' & E & D' & P).
    cbn [fst snd] in St; rewrite (storable_map _ _ St) in P. exists ((k, t') :: T). cbn [mapM fst snd]. rewrite E. cbn [bind]. rewrite ET.
    split; [reflexivity|]. constructor; [|exact FT]. split; [reflexivity|]. exists n, d'. split; [exact D|]. split; [exact D'|exact P]. }
  destruct X as (T & ET & FT). rewrite ET. cbn [bind]. eexists; split; [reflexivity|]. cbn. now split. Qed.
End EnvExt.
End P.

(** ** clone and detach *)
Section HeapP.
Context {K : Type}.
Implicit Types (s : store K) (h : list (tensor K)).

Lemma clone_items_ok d : forall h, dict_ok h d ->
  exists g d', clone_items h d = Ok (h ++ g, d') /\
    (forall k, match dget d' k with Some l => length h <= l < length h + length g /\ exists l0, dget d k = Some l0 /\ nth_error (h ++ g) l = nth_error h l0
                                  | None => dget d k = None end) /\
    (forall k l, In (k, l) d' -> length h <= l < length h + length g).
Proof. induction d as [|[k l] d IH]; intros h Hd.
  - exists [], []. split; [cbn; now rewrite app_nil_r|]. split; [intros k; reflexivity|intros k l []].
  - cbn [clone_items]. assert (Hl : l < length h) by (apply (Hd k); now left).
    destruct (nth_error h l) as [t|] eqn:E; [|apply nth_error_None in E; lia].
    destruct (IH (h ++ [t])) as (g & d' & Ec & P1 & P2).
    { intros k' l' Hi. rewrite app_length. cbn. specialize (Hd k' l' (or_intror Hi)). lia. }
    rewrite Ec. cbn [bind]. exists (t :: g), ((k, length h) :: d'). rewrite <- app_assoc. split; [reflexivity|].
    assert (P2' : forall k l, In (k, l) d' -> length h <= l < length h + length (t :: g)).
    { intros k' l' Hi. specialize (P2 k' l' Hi). rewrite app_length in P2. cbn in *. lia. }
    split.
    + intros k'. cbn [dget]. destruct (eq_dec k' k) as [->|Hn].
      * split; [cbn; lia|]. exists l. split; [reflexivity|]. cbn.
        rewrite nth_error_app2, Nat.sub_diag by lia. cbn. now rewrite E.
      * specialize (P1 k'). destruct (dget d' k') as [l'|] eqn:Ed; [|exact P1].
        destruct P1 as (Hr & l0 & H0 & H1). split; [apply (P2' k'), dget_In, Ed|]. exists l0. split; [exact H0|].
        rewrite <- app_assoc in H1. cbn in H1. cbn. rewrite H1. apply nth_error_app1.
        apply (Hd k'). right. now apply dget_In.
    + intros k' l' [[= <- <-]|Hi]; [cbn; lia|now apply (P2' k')]. Qed.

Lemma rd_grow s g ds : store_ok s -> forall a k, a < length (dicts s) ->
  rd {| tens := tens s ++ g; dicts := dicts s ++ ds |} a k = rd s a k.
Proof. intros Hok a k Ha. unfold rd. cbn. rewrite nth_error_app1 by exact Ha.
  destruct (nth_error (dicts s) a) as [d|] eqn:E; [|reflexivity]. destruct (dget d k) as [l|] eqn:Ed; [|reflexivity].
  apply nth_error_app1. apply nth_error_In in E. unfold store_ok in Hok. rewrite Forall_forall in Hok.
  apply (Hok d E k). now apply dget_In. Qed.

Lemma clone_dict_ok s a : store_ok s -> a < length (dicts s) ->
  exists s' a', clone_dict s a = Ok (s', a') /\ store_ok s' /\ a' = length (dicts s) /\ length (dicts s') = S (length (dicts s)) /\
    length (tens s) <= length (tens s') /\
    keeps s s' /\ (forall k, rd s' a' k = rd s a k) /\
    (exists d', nth_error (dicts s') a' = Some d' /\ forall k l, In (k, l) d' -> length (tens s) <= l) /\
    (forall b d, b < length (dicts s) -> nth_error (dicts s') b = Some d -> forall k l, In (k, l) d -> l < length (tens s)).
Proof. intros Hok Ha. unfold clone_dict. destruct (nth_error (dicts s) a) as [d|] eqn:E; [|apply nth_error_None in E; lia].
  assert (Hd : dict_ok (tens s) d) by (unfold store_ok in Hok; rewrite Forall_forall in Hok; apply Hok; now apply nth_error_In in E).
  destruct (clone_items_ok d (tens s) Hd) as (g & d' & Ec & P1 & P2). rewrite Ec. cbn [bind].
  eexists; eexists; split; [reflexivity|]. split; [|split; [reflexivity|split; [cbn; rewrite app_length; cbn; lia|split; [cbn; rewrite app_length; lia|split; [|split; [|split]]]]]].
  - unfold store_ok in *. cbn. apply Forall_app. split.
    + eapply Forall_impl; [|exact Hok]. intros d0 H k l Hi. rewrite app_length. specialize (H k l Hi). lia.
    + constructor; [|constructor]. intros k l Hi. rewrite app_length. specialize (P2 k l Hi). lia.
  - intros b k Hb. now apply rd_grow.
  - intros k. unfold rd. cbn. rewrite nth_error_app2, Nat.sub_diag by lia. cbn. rewrite E.
    specialize (P1 k). destruct (dget d' k) as [l|]; [|now rewrite P1].
    destruct P1 as (_ & l0 & H0 & H1). now rewrite H0.
  - exists d'. split; [cbn; rewrite nth_error_app2, Nat.sub_diag by lia; reflexivity|]. intros k l Hi. now apply (P2 k l).
  - intros b d0 Hb Hn k l Hi. cbn in Hn. rewrite nth_error_app1 in Hn by exact Hb. apply nth_error_In in Hn.
    unfold store_ok in Hok. rewrite Forall_forall in Hok. now apply (Hok d0 Hn k). Qed.

Lemma detach_dict_ok s a : store_ok s -> a < length (dicts s) ->
  exists s' a', detach_dict s a = Ok (s', a') /\ store_ok s' /\ a' = length (dicts s) /\ length (dicts s') = S (length (dicts s)) /\
    keeps s s' /\ (forall k, rd s' a' k = rd s a k).
Proof. intros Hok Ha. unfold detach_dict. destruct (nth_error (dicts s) a) as [d|] eqn:E; [|apply nth_error_None in E; lia].
  assert (Em : map (fun kl : coord * coord * nat => (fst kl, snd kl)) d = d) by (rewrite <- map_id; apply map_ext; now intros []).
  rewrite Em. eexists; eexists; split; [reflexivity|]. split; [|split; [reflexivity|split; [cbn; rewrite app_length; cbn; lia|split]]].
  - unfold store_ok in *. cbn. apply Forall_app. split; [exact Hok|]. constructor; [|constructor].
    rewrite Forall_forall in Hok. apply Hok. now apply nth_error_In in E.
  - intros b k Hb. unfold rd. cbn. now rewrite nth_error_app1 by exact Hb.
  - intros k. unfold rd. cbn. rewrite nth_error_app2, Nat.sub_diag by lia. cbn. now rewrite E. Qed.

Lemma length_put {X} (l : list X) n x : n < length l -> length (put l n x) = length l.
Proof. intros H. unfold put. rewrite app_length, firstn_length. cbn [length]. rewrite skipn_length. lia. Qed.
Lemma nth_put {X} (l : list X) n x m : n < length l -> nth_error (put l n x) m = if Nat.eqb m n then Some x else nth_error l m.
Proof. intros H. unfold put. destruct (Nat.eqb_spec m n) as [->|Hn].
  - rewrite nth_error_app2, firstn_length, Nat.min_l, Nat.sub_diag by (rewrite ?firstn_length; lia). reflexivity.
  - destruct (Nat.lt_ge_cases m n) as [Hm|Hm].
    + rewrite nth_error_app1 by (rewrite firstn_length; lia). revert l m H Hn Hm. induction n as [|n IH]; intros l m H Hn Hm; [lia|].
      destruct l as [|y l]; [cbn in H; lia|]. destruct m as [|m]; [reflexivity|]. cbn. apply IH; cbn in H; lia.
    + rewrite nth_error_app2 by (rewrite firstn_length; lia). rewrite firstn_length, Nat.min_l by lia.
      destruct (m - n) as [|j] eqn:E; [lia|]. cbn [nth_error].
      replace m with (S n + j) by lia. generalize (S n). intros q. clear. revert l; induction q as [|q IH]; intros l; [reflexivity|].
      destruct l as [|y l]; [cbn; now destruct j|]. cbn. apply IH. Qed.

Lemma In_dset (d : dict (coord * coord) nat) k l k' l' : In (k', l') (dset d k l) -> l' = l \/ In (k', l') d.
Proof. induction d as [|[a b] d IH]; cbn; [intros [[= <- <-]|[]]; now left|].
  destruct (eq_dec k a) as [->|Hn]; cbn; intros [H|H].
  - inv H. now left.
  - right. now right.
  - right. now left.
  - destruct (IH H); [now left|right; now right]. Qed.

Lemma run_op_step s o A B : store_ok s -> apart s A B -> In (op_addr o) A ->
  store_ok (run_op s o) /\ apart (run_op s o) A B /\ length (dicts (run_op s o)) = length (dicts s) /\ forall b k, In b B -> rd (run_op s o) b k = rd s b k.
Proof. intros Hok HA Ho. destruct o as [a k t|a k f]; cbn [run_op op_addr] in *.
  - unfold setitem. destruct (nth_error (dicts s) a) as [d|] eqn:E; [|now repeat split; try apply HA].
    assert (La : a < length (dicts s)) by (apply nth_error_Some; congruence).
    assert (Hlt : forall b d0 k0 l0, nth_error (dicts s) b = Some d0 -> In (k0, l0) d0 -> l0 < length (tens s)).
    { intros b d0 k0 l0 Hn Hi. unfold store_ok in Hok. rewrite Forall_forall in Hok. apply nth_error_In in Hn. now apply (Hok d0 Hn k0). }
    split; [|split; [|split]].
    + unfold store_ok in *. cbn. apply Forall_forall. intros d0 Hd0. apply In_nth_error in Hd0 as [m Hm].
      rewrite nth_put in Hm by exact La. intros k0 l0 Hi. rewrite app_length. cbn.
      destruct (Nat.eqb m a); [|specialize (Hlt m d0 k0 l0 Hm Hi); lia].
      injection Hm as <-. destruct (In_dset _ _ _ _ _ Hi) as [->|Hi']; [lia|]. specialize (Hlt a d k0 l0 E Hi'). lia.
    + destruct HA as [HA1 HA2]. split; [exact HA1|]. intros x y l Hx Hy (d1 & k1 & N1 & I1) (d2 & k2 & N2 & I2).
      cbn in N1, N2. rewrite nth_put in N1, N2 by exact La.
      rewrite (proj2 (Nat.eqb_neq y a)) in N2 by (intros ->; now apply (HA1 a a Ho Hy)).
      destruct (Nat.eqb_spec x a) as [->|Hn].
      * injection N1 as <-. destruct (In_dset _ _ _ _ _ I1) as [->|I1'].
        -- specialize (Hlt y d2 k2 _ N2 I2). lia.
        -- apply (HA2 a y l Hx Hy); [exists d, k1; now split|exists d2, k2; now split].
      * apply (HA2 x y l Hx Hy); [exists d1, k1; now split|exists d2, k2; now split].
    + cbn. now apply length_put.
    + intros b k0 Hb. unfold rd. cbn. rewrite nth_put by exact La.
      rewrite (proj2 (Nat.eqb_neq b a)) by (intros ->; destruct HA as [HA1 _]; now apply (HA1 a a Ho Hb)).
      destruct (nth_error (dicts s) b) as [d0|] eqn:Eb; [|reflexivity]. destruct (dget d0 k0) as [l|] eqn:Ed; [|reflexivity].
      apply nth_error_app1. apply (Hlt b d0 k0 l Eb). now apply dget_In.
  - unfold inplace. destruct (nth_error (dicts s) a) as [d|] eqn:E; [|now repeat split; try apply HA].
    destruct (dget d k) as [l|] eqn:Ed; [|now repeat split; try apply HA].
    destruct (nth_error (tens s) l) as [t|] eqn:El; [|now repeat split; try apply HA].
    assert (Ll : l < length (tens s)) by (apply nth_error_Some; congruence).
    split; [|split; [exact HA|split; [reflexivity|]]].
    + unfold store_ok in *. cbn. eapply Forall_impl; [|exact Hok]. intros d0 H k0 l0 Hi. rewrite length_put by exact Ll. now apply (H k0).
    + intros b k0 Hb. unfold rd. cbn. destruct (nth_error (dicts s) b) as [d0|] eqn:Eb; [|reflexivity].
      destruct (dget d0 k0) as [l0|] eqn:Ed0; [|reflexivity]. rewrite nth_put by exact Ll.
      destruct (Nat.eqb_spec l0 l) as [->|]; [|reflexivity]. exfalso. destruct HA as [_ HA2].
      apply (HA2 a b l Ho Hb); [exists d, k; split; [exact E|now apply dget_In]|exists d0, k0; split; [exact Eb|now apply dget_In]]. Qed.

Lemma run_ops ops : forall s A B, store_ok s -> apart s A B -> Forall (fun o => In (op_addr o) A) ops ->
  forall b k, In b B -> rd (fold_left run_op ops s) b k = rd s b k.
Proof. induction ops as [|o ops IH]; intros s A B Hok HA HF b k Hb; [reflexivity|]. cbn [fold_left].
  inversion HF as [|? ? H1 H2]; subst. destruct (run_op_step s o A B Hok HA H1) as (O' & A' & _ & R).
  rewrite (IH (run_op s o) A B O' A' H2 b k Hb). now apply R. Qed.

Lemma apart_sym s A B : apart s A B -> apart s B A.
Proof. intros [H1 H2]. split; [intros a b Ha Hb E; subst; now apply (H1 b b)|intros a b l Ha Hb La Lb; now apply (H2 b a l)]. Qed.

Lemma env_clone_ok gdt s e : store_ok s -> env_ok s e ->
  exists s' e', env_clone gdt s e = Ok (s', e') /\ store_ok s' /\ p_chi e' = p_chi e /\
    (forall k, rd s' (p_C e') k = rd s (p_C e) k) /\ (forall k, rd s' (p_T e') k = rd s (p_T e) k) /\
    keeps s s' /\ apart s' [p_C e; p_T e] [p_C e'; p_T e'].
Proof. intros Hok [HC HT]. unfold env_clone, with_dicts.
  destruct (clone_dict_ok s (p_C e) Hok HC) as (s1 & c & E1 & O1 & Ac & L1 & T1 & K1 & R1 & (dc & Nc & Fc) & F1).
  rewrite E1. cbn [bind].
  destruct (clone_dict_ok s1 (p_T e) O1 ltac:(lia)) as (s2 & t & E2 & O2 & At & L2 & T2 & K2 & R2 & (dt' & Nt & Ft) & F2).
  rewrite E2. cbn [bind]. eexists; eexists; split; [reflexivity|]. cbn [p_chi p_C p_T].
  split; [exact O2|]. split; [reflexivity|]. split; [intros k; rewrite (K2 c k) by lia; apply R1|].
  split; [intros k; rewrite R2; apply K1; exact HT|]. split; [intros a k Ha; rewrite (K2 a k) by lia; now apply K1|].
  assert (Dc : forall b, b < length (dicts s1) -> nth_error (dicts s2) b = nth_error (dicts s1) b).
  { unfold clone_dict in E2. destruct (nth_error (dicts s1) (p_T e)) as [d|]; [|discriminate].
    destruct (clone_items (tens s1) d) as [[h d']|]; [|discriminate]. cbn in E2. injection E2 as <- _. cbn. intros b Hb. now apply nth_error_app1. }
  split.
  - intros a b Ha Hb. cbn in Ha, Hb. destruct Ha as [<-|[<-|[]]], Hb as [<-|[<-|[]]]; lia.
  - intros a b l Ha Hb (d1 & k1 & N1 & I1) (d2 & k2 & N2 & I2).
    assert (La : a < length (dicts s)) by (cbn in Ha; destruct Ha as [<-|[<-|[]]]; assumption).
    assert (L : l < length (tens s)). { rewrite Dc in N1 by lia. now apply (F1 a d1 La N1 k1). }
    cbn in Hb. destruct Hb as [<-|[<-|[]]].
    + rewrite Dc in N2 by lia. rewrite Nc in N2. injection N2 as <-. specialize (Fc k2 l I2). lia.
    + rewrite Nt in N2. injection N2 as <-. specialize (Ft k2 l I2). lia. Qed.

Lemma env_detach_ok gdt s e : store_ok s -> env_ok s e ->
  exists s' e', env_detach gdt s e = Ok (s', e') /\ store_ok s' /\ p_chi e' = p_chi e /\
    (forall k, rd s' (p_C e') k = rd s (p_C e) k) /\ (forall k, rd s' (p_T e') k = rd s (p_T e) k) /\
    keeps s s' /\ (forall a b, In a [p_C e; p_T e] -> In b [p_C e'; p_T e'] -> a <> b).
Proof. intros Hok [HC HT]. unfold env_detach, with_dicts.
  destruct (detach_dict_ok s (p_C e) Hok HC) as (s1 & c & E1 & O1 & Ac & L1 & K1 & R1). rewrite E1. cbn [bind].
  destruct (detach_dict_ok s1 (p_T e) O1 ltac:(lia)) as (s2 & t & E2 & O2 & At & L2 & K2 & R2). rewrite E2. cbn [bind].
  eexists; eexists; split; [reflexivity|]. cbn [p_chi p_C p_T].
  split; [exact O2|]. split; [reflexivity|]. split; [intros k; rewrite (K2 c k) by lia; apply R1|].
  split; [intros k; rewrite R2; apply K1; exact HT|]. split; [intros a k Ha; rewrite (K2 a k) by lia; now apply K1|].
  intros a b Ha Hb. cbn in Ha, Hb. destruct Ha as [<-|[<-|[]]], Hb as [<-|[<-|[]]]; lia. Qed.

(** assignments through one dictionary are invisible through another *)
Lemma setitem_other s a b k k' t : store_ok s -> a <> b -> rd (setitem s a k t) b k' = rd s b k'.
Proof. intros Hok Hab. unfold setitem. destruct (nth_error (dicts s) a) as [d|] eqn:E; [|reflexivity].
  assert (La : a < length (dicts s)) by (apply nth_error_Some; congruence).
  unfold rd. cbn. rewrite nth_put by exact La. rewrite (proj2 (Nat.eqb_neq b a)) by congruence.
  destruct (nth_error (dicts s) b) as [d0|] eqn:Eb; [|reflexivity]. destruct (dget d0 k') as [l|] eqn:Ed; [|reflexivity].
  apply nth_error_app1. unfold store_ok in Hok. rewrite Forall_forall in Hok. apply nth_error_In in Eb. apply (Hok d0 Eb k'). now apply dget_In. Qed.
End HeapP.
