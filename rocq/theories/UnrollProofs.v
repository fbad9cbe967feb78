From Verif Require Import Base BaseLemmas Tensor TensorLemmas Net NetSpec NetProofs NetProofs2 Unroll.
From Coq Require Import Ring.
Open Scope list_scope.
Open Scope nat_scope.
Open Scope res_scope.

Section Proofs.
Context {K : Type} (z o : K) (add mul : K -> K -> K).
Hypothesis SR : semi_ring_theory z o add mul eq.
Variable D : nat -> nat.
Notation sum_over := (sum_over D z add).
Notation einsum := (einsum z o add mul).
Notation tel := (tel z).
Implicit Types (ops : list (tensor K * list nat)) (out unroll ig : list nat).

Definition prodf ops (s : nat -> nat) : K := nprod o mul (map (fun op => tel (fst op) (map s (snd op))) ops).
Definition labelled ops : Prop := forall op, In op ops -> tdims (fst op) = map D (snd op).

Lemma prodf_dep ops : dep (flat_map snd ops) (prodf ops).
Proof. intros s s' E. unfold prodf. f_equal. apply map_ext_in. intros op Hop. f_equal.
  apply map_ext_in. intros l Hl. apply E. apply in_flat_map. eauto. Qed.

Lemma label_dims_eq ops : labelled ops -> label_dims ops = map (fun l => (l, D l)) (flat_map snd ops).
Proof. unfold label_dims. induction ops as [|op ops IH]; cbn; intros HL; [reflexivity|].
  rewrite IH by (intros x Hx; apply HL; now right). rewrite map_app. f_equal.
  rewrite (HL op) by now left. clear. induction (snd op) as [|a l IH]; cbn; [reflexivity|now rewrite IH]. Qed.
Lemma assoc_dims ops l : labelled ops -> In l (flat_map snd ops) -> assoc (label_dims ops) l = D l.
Proof. intros HL Hi. unfold assoc. rewrite label_dims_eq by exact HL. now rewrite (dget_self D _ _ Hi). Qed.
Lemma i_to_s_dims ops l : labelled ops -> In l (flat_map snd ops) -> dget_exn (i_to_s ops) l = Ok (D l).
Proof. intros HL Hi. unfold dget_exn, i_to_s. rewrite label_dims_eq by exact HL.
  destruct (proj2 (dget_dict_of_key (map (fun l => (l, D l)) (flat_map snd ops)) l)) as [v Hv].
  { rewrite map_map, map_id. exact Hi. }
  rewrite Hv. apply dget_dict_of_In in Hv. apply in_map_iff in Hv. destruct Hv as (? & E & _). now injection E as -> <-. Qed.

Lemma map_V_dim ls : map (ldim D) (map V ls) = map D ls.
Proof. now rewrite map_map. Qed.
Lemma map_V_val s ls : map (lval D s) (map V ls) = map s ls.
Proof. now rewrite map_map. Qed.
Lemma bonds_V ls : flat_map bonds (map V ls) = ls.
Proof. induction ls as [|a l IH]; cbn; [reflexivity|now rewrite IH]. Qed.
Lemma in_range_map s ls : (forall l, In l ls -> s l < D l) -> in_range (map D ls) (map s ls).
Proof. unfold in_range. induction ls as [|a l IH]; cbn; intros Hs; constructor; [apply Hs; now left|apply IH; intros; apply Hs; now right]. Qed.

Lemma In_summed l ops out : In l (summed ops out) <-> In l (flat_map snd ops) /\ ~ In l out.
Proof. unfold summed. rewrite filter_In, In_distinct, negb_true_iff, memb_false. reflexivity. Qed.
Lemma NoDup_summed ops out : NoDup (summed ops out).
Proof. apply NoDup_filter, NoDup_distinct. Qed.

Lemma einsum_sum ops out : labelled ops -> NoDup out -> incl out (flat_map snd ops) ->
  exists M, einsum ops out = Ok M /\ twf M /\ tdims M = map D out /\
    forall s, (forall l, In l out -> s l < D l) -> tget M (map s out) = Some (sum_over (summed ops out) (prodf ops) s).
Proof. intros HL HN HI. unfold Net.einsum.
  match goal with |- context [if ?c then _ else _] => replace c with true end.
  2:{ symmetry. repeat rewrite andb_true_iff. repeat split.
      - apply forallb_forall. intros op Hop. apply Nat.eqb_eq. rewrite (HL op Hop). now rewrite map_length.
      - apply forallb_forall. intros [l d] Hld. cbn. apply Nat.eqb_eq.
        rewrite label_dims_eq in Hld by exact HL. apply in_map_iff in Hld. destruct Hld as (l' & E & Hl). injection E as -> <-.
        symmetry. now apply assoc_dims.
      - now apply nodupb_spec.
      - apply forallb_forall. intros l Hl. now apply memb_spec, HI. }
  eexists. split; [reflexivity|]. split; [apply twf_tbuild|].
  assert (ED : map (assoc (label_dims ops)) out = map D out).
  { apply map_ext_in. intros l Hl. apply assoc_dims; [exact HL|now apply HI]. }
  split; [exact ED|]. intros s Hs. rewrite ED. rewrite tget_tbuild by now apply in_range_map. f_equal.
  replace (map (assoc (label_dims ops)) (summed ops out)) with (map (ldim D) (map V (summed ops out))).
  2:{ rewrite map_V_dim. apply map_ext_in. intros l Hl. apply In_summed in Hl. symmetry. now apply assoc_dims. }
  unfold nsum. change (fold_right add z ?l) with (sum_list z add l).
  rewrite (so_legs z o add mul SR D (map V (summed ops out))) with (s := s) by (rewrite bonds_V; apply NoDup_summed).
  rewrite bonds_V. apply so_ext. intros s' [A B]. rewrite map_V_val. unfold prodf. f_equal. apply map_ext_in.
  intros op Hop. f_equal. apply map_ext_in. intros l Hl.
  replace (map s out) with (map s' out).
  2:{ apply map_ext_in. intros k Hk. apply A. intros X. apply In_summed in X. tauto. }
  rewrite <- map_app. assert (X : In l (out ++ summed ops out)).
  { apply in_app_iff. destruct (in_dec Nat.eq_dec l out); [now left|right]. apply In_summed. split; [|assumption].
    apply in_flat_map. eauto. }
  revert X. generalize (out ++ summed ops out). intros ls X. unfold assoc.
  replace (combine ls (map s' ls)) with (map (fun l => (l, s' l)) ls) by (clear; induction ls as [|a l IH]; cbn; [reflexivity|now rewrite IH]).
  now rewrite dget_self. Qed.

(** ** one narrowed operand *)
Lemma In_strip l unroll ig : In l (strip unroll ig) <-> In l ig /\ ~ In l unroll.
Proof. unfold strip. rewrite filter_In, negb_true_iff, memb_false. reflexivity. Qed.

Section Pass.
Variable unroll : list nat.
Variable u : dict nat nat.
Variable s0 : nat -> nat.
Hypothesis Hu : forall l, In l unroll -> dget u l = Some (s0 l).
Hypothesis Hr : forall l, In l unroll -> s0 l < D l.

Lemma kept_slices ig : kept (map D ig) (slices unroll u ig) = Ok (map D (strip unroll ig)).
Proof. unfold slices, strip. induction ig as [|a ig IH]; [reflexivity|]. cbn [map filter].
  destruct (memb a unroll) eqn:E; cbn [negb].
  - apply memb_spec in E. rewrite (Hu a E). cbn [kept]. assert (R := Hr a E). apply Nat.ltb_lt in R. now rewrite R, IH.
  - cbn. now rewrite IH. Qed.
Lemma fill_slices s ig : (forall l, In l unroll -> s l = s0 l) -> fill (slices unroll u ig) (map s (strip unroll ig)) = map s ig.
Proof. intros Hs. unfold slices, strip. induction ig as [|a ig IH]; [reflexivity|]. cbn [map filter].
  destruct (memb a unroll) eqn:E; cbn [negb].
  - apply memb_spec in E. rewrite (Hu a E). cbn. now rewrite IH, Hs.
  - cbn. now rewrite IH. Qed.
Lemma unfill_slices s ig : (forall l, In l ig -> In l unroll -> s l = s0 l) -> unfill (slices unroll u ig) (map s ig) = Some (map s (strip unroll ig)).
Proof. unfold slices, strip. induction ig as [|a ig IH]; intros Hs; [reflexivity|]. cbn [map filter].
  destruct (memb a unroll) eqn:E; cbn [negb].
  - apply memb_spec in E. rewrite (Hu a E). cbn. rewrite Hs, Nat.eqb_refl by (now left || exact E). apply IH. intros; apply Hs; [now right|assumption].
  - cbn. rewrite IH by (intros; apply Hs; [now right|assumption]). reflexivity. Qed.
Lemma unfill_slices_neg s ig l : In l ig -> In l unroll -> s l <> s0 l -> unfill (slices unroll u ig) (map s ig) = None.
Proof. intros Hi Hl Hs. unfold slices. induction ig as [|a ig IH]; [destruct Hi|]. cbn [map].
  destruct (memb a unroll) eqn:E.
  - apply memb_spec in E. rewrite (Hu a E). cbn. destruct (Nat.eqb_spec (s0 a) (s a)) as [X|X]; [|reflexivity].
    apply IH. destruct Hi as [->|Hi]; [congruence|exact Hi].
  - cbn. destruct Hi as [->|Hi]; [apply memb_false in E; tauto|]. now rewrite IH. Qed.

Lemma narrow_ok ckpt op : tdims (fst op) = map D (snd op) ->
  exists t, narrow z ckpt unroll u op = Ok (t, strip unroll (snd op)) /\ tdims t = map D (strip unroll (snd op)) /\
    forall s, (forall l, In l unroll -> s l = s0 l) -> (forall l, In l (snd op) -> s l < D l) ->
      tel t (map s (strip unroll (snd op))) = tel (fst op) (map s (snd op)).
Proof. intros HD. unfold narrow. destruct (ckpt || _) eqn:E.
  - unfold getitem. rewrite HD, kept_slices. cbn. eexists. split; [reflexivity|]. split; [reflexivity|].
    intros s Hs Hsr. unfold Net.tel at 1. rewrite tget_tbuild.
    + now rewrite fill_slices.
    + apply in_range_map. intros l Hl. apply In_strip in Hl. now apply Hsr.
  - apply orb_false_iff in E. destruct E as [_ E].
    assert (X : strip unroll (snd op) = snd op).
    { unfold strip. clear -E. induction (snd op) as [|a l IH]; cbn in *; [reflexivity|].
      apply orb_false_iff in E. destruct E as [-> E]. cbn. now rewrite IH. }
    exists (fst op). rewrite X. auto. Qed.

Lemma narrow_all ckpt ops : labelled ops ->
  exists ops', mapM (narrow z ckpt unroll u) ops = Ok ops' /\ labelled ops' /\ map snd ops' = map (fun op => strip unroll (snd op)) ops /\
    forall s, (forall l, In l unroll -> s l = s0 l) -> (forall l, In l (flat_map snd ops) -> s l < D l) -> prodf ops' s = prodf ops s.
Proof. induction ops as [|op ops IH]; intros HL.
  - exists []. repeat split. intros ? [].
  - destruct IH as (ops' & E & L & S & P); [intros x Hx; apply HL; now right|].
    destruct (narrow_ok ckpt op) as (t & E1 & D1 & P1); [apply HL; now left|].
    exists ((t, strip unroll (snd op)) :: ops'). split; [cbn; now rewrite E1; cbn; rewrite E|]. split; [|split].
    + intros x [<-|X]; [exact D1|now apply L].
    + cbn. now rewrite S.
    + intros s Hs Hsr. unfold prodf. cbn -[strip]. f_equal.
      * apply P1; [exact Hs|]. intros l Hl. apply Hsr. cbn. apply in_app_iff. now left.
      * apply P; [exact Hs|]. intros l Hl. apply Hsr. cbn. apply in_app_iff. now right. Qed.
End Pass.

Section Loop.
Variables (ops : list (tensor K * list nat)) (out unroll : list nat).
Hypothesis HL : labelled ops.
Hypothesis HN : NoDup out.
Hypothesis HI : incl out (flat_map snd ops).
Hypothesis HU : incl unroll (flat_map snd ops).

Definition cu : list nat := filter (fun i => negb (memb i out)) unroll.
(** the labels summed in one pass *)
Definition rest : list nat := filter (fun l => negb (memb l unroll)) (summed ops out).
Lemma In_cu l : In l cu <-> In l unroll /\ ~ In l out.
Proof. unfold cu. now rewrite filter_In, negb_true_iff, memb_false. Qed.
Lemma In_rest l : In l rest <-> In l (flat_map snd ops) /\ ~ In l out /\ ~ In l unroll.
Proof. unfold rest. rewrite filter_In, In_summed, negb_true_iff, memb_false. tauto. Qed.
Lemma NoDup_strip ig : NoDup ig -> NoDup (strip unroll ig).
Proof. apply NoDup_filter. Qed.

Definition covered (P : tensor K) (s : nat -> nat) : Prop :=
  tget P (map s (out ++ cu)) = Some (sum_over rest (prodf ops) s).

Lemma slices_cu u : slices unroll u out ++ map (dget u) cu = slices unroll u (out ++ cu).
Proof. unfold slices. rewrite map_app. f_equal. apply map_ext_in. intros l Hl. apply In_cu in Hl. destruct Hl as [Hl _].
  apply memb_spec in Hl. now rewrite Hl. Qed.
Lemma strip_cu : strip unroll (out ++ cu) = strip unroll out.
Proof. unfold strip. rewrite filter_app. rewrite <- (app_nil_r (filter _ out)) at 2. f_equal.
  assert (X : forall l, In l cu -> memb l unroll = true) by (intros l Hl; apply In_cu in Hl; now apply memb_spec).
  revert X. generalize cu as c. induction c as [|a l IH]; cbn; intros X; [reflexivity|]. rewrite X by now left. apply IH. intros; apply X; now right. Qed.

Lemma range_all s : (forall l, In l (out ++ cu ++ rest) -> s l < D l) -> forall l, In l (flat_map snd ops) -> s l < D l.
Proof. intros Hs l Hl. apply Hs. rewrite !in_app_iff, In_cu, In_rest.
  destruct (in_dec Nat.eq_dec l out), (in_dec Nat.eq_dec l unroll); tauto. Qed.

(** one pass writes the entries with the given unrolled indices and keeps the others *)
Lemma pass ckpt P s0 vals : (forall l, In l unroll -> dget (dict_of (combine unroll vals)) l = Some (s0 l)) -> (forall l, In l unroll -> s0 l < D l) ->
  twf P -> tdims P = map D (out ++ cu) ->
  exists P', loop_body z o add mul ckpt ops out unroll P vals = Ok P' /\ twf P' /\ tdims P' = map D (out ++ cu) /\
    forall s, (forall l, In l (out ++ cu) -> s l < D l) ->
      ((forall l, In l unroll -> s l = s0 l) -> covered P' s) /\ (covered P s -> covered P' s).
Proof. intros Hu Hr HW HP. unfold loop_body. set (u := dict_of (combine unroll vals)) in *.
  fold cu. rewrite slices_cu.
  destruct (narrow_all unroll u s0 Hu Hr ckpt ops HL) as (ops' & E & L' & S' & P').
  rewrite E. cbn [bind].
  assert (Hflat : forall l, In l (flat_map snd ops') <-> In l (flat_map snd ops) /\ ~ In l unroll).
  { intros l. rewrite !flat_map_concat_snd, S'. rewrite !in_concat. split.
    - intros (g & Hg & Hl). apply in_map_iff in Hg. destruct Hg as (op & <- & Hop). apply In_strip in Hl. split; [|tauto].
      exists (snd op). split; [now apply in_map|tauto].
    - intros [(g & Hg & Hl) Hn]. apply in_map_iff in Hg. destruct Hg as (op & <- & Hop). exists (strip unroll (snd op)).
      split; [now apply (in_map (fun op => strip unroll (snd op)))|now apply In_strip]. }
  destruct (einsum_sum ops' (strip unroll out)) as (M & EM & WM & DM & VM); [exact L'|now apply NoDup_strip| |].
  { intros l Hl. apply In_strip in Hl. apply Hflat. split; [apply HI|]; tauto. }
  rewrite EM. cbn [bind]. unfold setitem. rewrite HP, (kept_slices _ _ _ Hu Hr), strip_cu. cbn [bind].
  rewrite DM. unfold eqb. destruct (eq_dec _ _) as [_|X]; [|congruence].
  eexists. split; [reflexivity|]. split; [apply twf_tbuild|]. split; [reflexivity|].
  intros s Hs.
  assert (C : (forall l, In l unroll -> s l = s0 l) -> covered (tbuild (map D (out ++ cu)) (fun kx => match unfill (slices unroll u (out ++ cu)) kx with Some jx => tel M jx | None => tel P kx end)) s).
  { intros Hq. unfold covered. rewrite tget_tbuild by now apply in_range_map. f_equal.
    rewrite (unfill_slices _ _ s0 Hu) by (intros; now apply Hq). rewrite strip_cu. unfold Net.tel. rewrite VM.
    2:{ intros l Hl. apply Hs, in_app_iff. left. apply In_strip in Hl. tauto. }
    transitivity (sum_over rest (prodf ops') s).
    - apply (so_perm z o add mul SR D _ _ (flat_map snd ops')); [|apply prodf_dep].
      apply NoDup_Permutation; [apply NoDup_summed|apply NoDup_filter, NoDup_summed|].
      intros l. rewrite In_summed, In_rest, Hflat, In_strip. tauto.
    - apply so_ext. intros s' [A B]. apply P'.
      + intros l Hl. rewrite A; [now apply Hq|]. rewrite In_rest. tauto.
      + apply range_all. intros l Hl. rewrite app_assoc in Hl. apply in_app_iff in Hl. destruct Hl as [Hl|Hl]; [|now apply B].
        rewrite A; [now apply Hs|]. rewrite In_rest. apply in_app_iff in Hl. rewrite In_cu in Hl. tauto. }
  split; [exact C|]. intros HC.
  destruct (Exists_dec (fun l => s l <> s0 l) unroll) as [X|X].
  { intros l. destruct (Nat.eq_dec (s l) (s0 l)); [right|left]; congruence. }
  - apply Exists_exists in X. destruct X as (l & Hl & Hne). unfold covered. rewrite tget_tbuild by now apply in_range_map.
    rewrite (unfill_slices_neg _ _ s0 Hu s (out ++ cu) l); [|rewrite in_app_iff, In_cu|exact Hl|exact Hne].
    + unfold Net.tel. now rewrite HC.
    + destruct (in_dec Nat.eq_dec l out); tauto.
  - apply C. intros l Hl. destruct (Nat.eq_dec (s l) (s0 l)) as [Y|Y]; [exact Y|]. exfalso. apply X, Exists_exists. eauto. Qed.

Lemma vals_map vals : in_range (map D unroll) vals -> exists s0 : nat -> nat,
  (forall l, In l unroll -> dget (dict_of (combine unroll vals)) l = Some (s0 l)) /\ (forall l, In l unroll -> s0 l < D l) /\
  forall s, vals = map s unroll -> forall l, In l unroll -> s l = s0 l.
Proof. intros R. exists (fun l => match dget (dict_of (combine unroll vals)) l with Some v => v | None => 0 end).
  assert (Hk : forall l, In l unroll -> exists v, dget (dict_of (combine unroll vals)) l = Some v).
  { intros l Hl. apply dget_dict_of_key. rewrite map_fst_combine; [exact Hl|]. apply Forall2_len in R. now rewrite map_length in R. }
  assert (Hin : forall l v, dget (dict_of (combine unroll vals)) l = Some v -> In (l, v) (combine unroll vals)) by (intros; now apply dget_dict_of_In).
  repeat split.
  - intros l Hl. destruct (Hk l Hl) as [v Hv]. now rewrite Hv.
  - intros l Hl. destruct (Hk l Hl) as [v Hv]. rewrite Hv. apply Hin in Hv. clear -R Hv. unfold in_range in R.
    revert vals R Hv. induction unroll as [|a ls I]; intros [|w vals] R Hv; cbn in *; try contradiction. inversion R; subst.
    destruct Hv as [X|X]; [injection X as -> ->; assumption|now apply (I vals)].
  - intros s -> l Hl. destruct (Hk l Hl) as [v Hv]. rewrite Hv. apply Hin in Hv.
    clear -Hv. induction unroll as [|a ls I]; cbn in *; [contradiction|]. destruct Hv as [X|X]; [injection X as -> ->; reflexivity|now apply I]. Qed.

Lemma loop_ok ckpt vs : (forall v, In v vs -> in_range (map D unroll) v) ->
  forall P, twf P -> tdims P = map D (out ++ cu) ->
  exists P', foldM (loop_body z o add mul ckpt ops out unroll) vs P = Ok P' /\ twf P' /\ tdims P' = map D (out ++ cu) /\
    forall s, (forall l, In l (out ++ cu) -> s l < D l) -> In (map s unroll) vs \/ covered P s -> covered P' s.
Proof. induction vs as [|v vs IH]; intros Hv P HW HP.
  - exists P. repeat split; auto. intros s _ [[]|X]; exact X.
  - destruct (vals_map v (Hv v (or_introl eq_refl))) as (s0 & Hu & Hr & Hs0).
    destruct (pass ckpt P s0 v Hu Hr HW HP) as (P1 & E1 & W1 & D1 & C1).
    destruct (IH (fun x Hx => Hv x (or_intror Hx)) P1 W1 D1) as (P2 & E2 & W2 & D2 & C2).
    exists P2. cbn [foldM]. rewrite E1. cbn [bind]. split; [exact E2|]. split; [exact W2|]. split; [exact D2|].
    intros s Hs HC. apply C2; [exact Hs|]. destruct (C1 s Hs) as [Ca Cb]. destruct HC as [[X|X]|X]; [|now left|right; now apply Cb].
    right. apply Ca. now apply Hs0. Qed.

Lemma unroll_ok junk ckpt : (forall l, In l unroll -> 2 <= groups_with l (map snd ops ++ [out])) ->
  contract_with_unroll z o add mul junk ckpt ops out unroll = einsum ops out.
Proof. intros HG. unfold contract_with_unroll. destruct unroll as [|u0 ul] eqn:EU; [reflexivity|]. rewrite <- EU in *. clear EU u0 ul.
  replace (forallb _ unroll) with true.
  2:{ symmetry. apply forallb_forall. intros l Hl. apply Nat.leb_le. now apply HG. }
  cbn [py_assert bind]. unfold contract_with_unroll_oe. fold cu.
  rewrite (mapM_Ok_map _ D) by (intros l Hl; apply i_to_s_dims; [exact HL|now apply HI]). cbn [bind].
  rewrite (mapM_Ok_map _ D) by (intros l Hl; apply i_to_s_dims; [exact HL|apply HU; now apply In_cu in Hl]). cbn [bind].
  rewrite (mapM_Ok_map _ D) by (intros l Hl; apply i_to_s_dims; [exact HL|now apply HU]). cbn [bind].
  rewrite <- map_app.
  destruct (einsum_sum ops out HL HN HI) as (M & EM & WM & DM & VM). rewrite EM.
  destruct (loop_ok ckpt (indices (map D unroll))) with (P := tbuild (map D (out ++ cu)) junk) as (P & EP & WP & DP & CP);
    [intros v Hv; now apply In_indices|apply twf_tbuild|reflexivity|].
  rewrite EP. cbn [bind].
  destruct (einsum_sum [(P, out ++ cu)] out) as (M' & EM' & WM' & DM' & VM').
  { intros op [<-|[]]. exact DP. }
  { exact HN. }
  { intros l Hl. cbn. rewrite app_nil_r. apply in_app_iff. now left. }
  rewrite EM'. f_equal. apply tensor_ext; [assumption..|congruence|].
  intros ix Rx. rewrite DM' in Rx.
  assert (X : exists s : nat -> nat, ix = map s out /\ forall l, In l out -> s l < D l).
  { clear -Rx HN. unfold in_range in Rx. revert ix Rx. induction out as [|a l IH]; intros ix R; cbn in R; inversion R; subst.
    - exists (fun _ => 0). split; [reflexivity|intros ? []].
    - inversion HN; subst. destruct (IH H4 _ H3) as (s & -> & Hs). exists (upd s a y). split.
      + cbn. rewrite upd_same. f_equal. apply map_ext_in. intros k Hk. symmetry. apply upd_other. congruence.
      + intros k [->|Hk]; [now rewrite upd_same|]. rewrite upd_other by congruence. now apply Hs. }
  destruct X as (s & -> & Hs). rewrite VM, VM' by exact Hs. f_equal.
  transitivity (sum_over (summed [(P, out ++ cu)] out) (sum_over rest (prodf ops)) s).
  - apply so_ext. intros s' [A B].
    assert (R' : forall l, In l (out ++ cu) -> s' l < D l).
    { intros l Hl. destruct (in_dec Nat.eq_dec l (summed [(P, out ++ cu)] out)) as [X|X]; [now apply B|].
      rewrite A by exact X. apply Hs. rewrite In_summed in X. cbn in X. rewrite app_nil_r in X.
      destruct (in_dec Nat.eq_dec l out); tauto. }
    unfold prodf at 1. cbn. unfold Net.tel. rewrite (CP s' R').
    + destruct SR. rewrite SRmul_comm. apply SRmul_1_l.
    + left. apply In_indices. apply in_range_map. intros l Hl. apply R'. rewrite in_app_iff, In_cu.
      destruct (in_dec Nat.eq_dec l out); tauto.
  - rewrite <- so_app. apply (so_perm z o add mul SR D _ _ (flat_map snd ops)); [|apply prodf_dep].
    apply NoDup_Permutation; [|apply NoDup_summed|].
    + apply NoDup_app_intro; [apply NoDup_summed|apply NoDup_filter, NoDup_summed|].
      intros l Hl. rewrite In_rest. rewrite In_summed in Hl. cbn in Hl. rewrite app_nil_r, in_app_iff, In_cu in Hl. tauto.
    + intros l. rewrite in_app_iff, !In_summed, In_rest. cbn. rewrite app_nil_r, in_app_iff, In_cu.
      assert (Y := HU l). destruct (in_dec Nat.eq_dec l unroll); tauto. Qed.
End Loop.
End Proofs.
