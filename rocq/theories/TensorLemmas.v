(** Lemmas about row-major tensors. *)
From Verif Require Import Base BaseLemmas Tensor.
Open Scope nat_scope.

Definition in_range (dims ix : list nat) : Prop := Forall2 (fun d i => i < d) dims ix.

Lemma In_indices dims ix : In ix (indices dims) <-> in_range dims ix.
Proof. unfold in_range; revert ix; induction dims as [|d ds IH]; intros ix; cbn [indices].
  - split; [intros [<-|[]]; constructor|intros Hx; inv Hx; left; reflexivity].
  - rewrite in_flat_map; split.
    + intros (i & Hi & Hx). apply in_seq in Hi. apply in_map_iff in Hx.
      destruct Hx as (r & <- & Hr). constructor; [lia|apply IH; exact Hr].
    + intros Hx; inv Hx. eexists; split; [apply in_seq|apply in_map_iff].
      2: eexists; split; [reflexivity|apply IH; eassumption]. lia. Qed.

Lemma NoDup_indices dims : NoDup (indices dims).
Proof. induction dims as [|d ds IH]; cbn [indices]; [repeat constructor; intros []|].
  generalize 0 at 1; intros n. revert n.
  induction d as [|d IHd]; intros n; cbn; [constructor|].
  apply NoDup_app_intro.
  - apply NoDup_map_inj; [intros a b _ _ He; congruence|exact IH].
  - apply IHd.
  - intros a Ha Hb. apply in_map_iff in Ha; destruct Ha as (r & <- & _).
    apply in_flat_map in Hb; destruct Hb as (i & Hi & Hb). apply in_seq in Hi.
    apply in_map_iff in Hb; destruct Hb as (r' & He & _). injection He; intros; lia. Qed.

Lemma length_indices dims : length (indices dims) = prod_dims dims.
Proof. induction dims as [|d ds IH]; cbn [indices prod_dims fold_right]; [reflexivity|].
  fold (prod_dims ds). rewrite <- IH. clear IH. generalize 0 at 1; intros n. revert n.
  induction d as [|d IHd]; intros n; cbn; [reflexivity|].
  rewrite app_length, map_length, IHd. reflexivity. Qed.

Section L.
Context {K : Type}.
Implicit Types (t : tensor K) (ix dims : list nat).

Lemma combine_map_r {A B C} (f : B -> C) (l : list A) (l' : list B) :
  combine l (map f l') = map (fun ab => (fst ab, f (snd ab))) (combine l l').
Proof. revert l'; induction l as [|a l IH]; intros [|b l']; cbn; try reflexivity.
  now rewrite IH. Qed.

Lemma combine_self_map {A B} (f : A -> B) (l : list A) :
  combine l (map f l) = map (fun a => (a, f a)) l.
Proof. induction l as [|a l IH]; cbn; [reflexivity|now rewrite IH]. Qed.

Lemma map_fst_combine {A B} (l : list A) (l' : list B) :
  length l = length l' -> map fst (combine l l') = l.
Proof. revert l'; induction l as [|a l IH]; intros [|b l']; cbn; intros Hl; try congruence;
  f_equal; apply IH; congruence. Qed.

Lemma map_snd_combine {A B} (l : list A) (l' : list B) :
  length l = length l' -> map snd (combine l l') = l'.
Proof. revert l'; induction l as [|a l IH]; intros [|b l']; cbn; intros Hl; try congruence;
  f_equal; apply IH; congruence. Qed.

Lemma telts_keys t : twf t -> dkeys (telts t) = indices (tdims t).
Proof. unfold twf, telts, dkeys; intros Hw. apply map_fst_combine.
  rewrite length_indices; congruence. Qed.

Lemma tget_Some t ix : twf t -> in_range (tdims t) ix -> exists v, tget t ix = Some v.
Proof. intros Hw Hr. unfold tget. apply dget_Some_key. rewrite telts_keys by exact Hw.
  apply In_indices; exact Hr. Qed.

Lemma tget_None t ix : twf t -> ~ in_range (tdims t) ix -> tget t ix = None.
Proof. intros Hw Hr. unfold tget. apply dget_None. rewrite telts_keys by exact Hw.
  rewrite In_indices; exact Hr. Qed.

Lemma tget_range t ix v : twf t -> tget t ix = Some v -> in_range (tdims t) ix.
Proof. intros Hw Hg. apply In_indices. rewrite <- telts_keys by exact Hw.
  apply dget_Some_key. exists v; exact Hg. Qed.

Lemma twf_tbuild dims (f : list nat -> K) : twf (tbuild dims f).
Proof. unfold twf, tbuild; cbn. now rewrite map_length, length_indices. Qed.

Lemma tget_tbuild dims (f : list nat -> K) ix :
  in_range dims ix -> tget (tbuild dims f) ix = Some (f ix).
Proof. intros Hr. unfold tget, telts, tbuild; cbn. rewrite combine_self_map.
  apply In_dget.
  - unfold dkeys; rewrite map_map; cbn; rewrite map_id; apply NoDup_indices.
  - apply in_map_iff; exists ix; split; [reflexivity|apply In_indices; exact Hr]. Qed.

Lemma dget_ext_list {A B} `{EqDec A} (l : list A) (v w : list B) :
  NoDup l -> length v = length l -> length w = length l ->
  (forall a, In a l -> dget (combine l v) a = dget (combine l w) a) -> v = w.
Proof. revert v w; induction l as [|a l IH]; intros [|x v] [|y w] Hn Hv Hw Hg; cbn in *;
    try congruence.
  apply NoDup_cons_iff in Hn; destruct Hn as [Ha Hn]. f_equal.
  - specialize (Hg a (or_introl eq_refl)). destruct (eq_dec a a); congruence.
  - apply IH; [exact Hn|congruence|congruence|]. intros b Hb.
    specialize (Hg b (or_intror Hb)). destruct (eq_dec b a); [congruence|exact Hg]. Qed.

(** tensors are determined by shape and elements *)
Lemma tensor_ext t1 t2 : twf t1 -> twf t2 -> tdims t1 = tdims t2 ->
  (forall ix, in_range (tdims t1) ix -> tget t1 ix = tget t2 ix) -> t1 = t2.
Proof. destruct t1 as [d1 v1], t2 as [d2 v2]; unfold twf, tget, telts; cbn.
  intros H1 H2 <- Hg. f_equal. apply (dget_ext_list (indices d1)).
  - apply NoDup_indices.
  - rewrite length_indices; exact H1.
  - rewrite length_indices; exact H2.
  - intros a Ha. apply Hg. apply In_indices; exact Ha. Qed.

Lemma tbuild_tget z t : twf t ->
  tbuild (tdims t) (fun ix => match tget t ix with Some v => v | None => z end) = t.
Proof. intros Hw. apply tensor_ext; [apply twf_tbuild|exact Hw|reflexivity|].
  intros ix Hr. change (in_range (tdims t) ix) in Hr. rewrite tget_tbuild by exact Hr.
  destruct (tget_Some t ix Hw Hr) as [v ->]; reflexivity. Qed.

Lemma twf_tzeros (z : K) dims : twf (tzeros z dims).
Proof. apply twf_tbuild. Qed.

Lemma tget_tzeros (z : K) dims ix : in_range dims ix -> tget (tzeros z dims) ix = Some z.
Proof. apply tget_tbuild. Qed.

Lemma is_prefix_full p ix : length p = length ix -> is_prefix p ix = true <-> p = ix.
Proof. revert ix; induction p as [|a p IH]; intros [|b ix]; cbn; intros Hl; try congruence.
  - tauto.
  - rewrite andb_true_iff, Nat.eqb_eq, IH by congruence. split; [intros [-> ->]|intros He; inv He];
      auto. Qed.

Lemma tupdate_spec t (ix : list Z) f t' : twf t -> tupdate t ix f = Ok t' ->
  exists p, norm_indices (tdims t) ix = Ok p /\ twf t' /\ tdims t' = tdims t /\
  forall jx, tget t' jx = option_map (fun v => if is_prefix p jx then f v else v) (tget t jx).
Proof. unfold tupdate; intros Hw Hu. bind_inv Hu. inv Hu. exists a; split; [exact Ha|].
  assert (Hl : length (indices (tdims t)) = length (tdata t))
    by (rewrite length_indices; symmetry; exact Hw).
  split; [|split; [reflexivity|]].
  - unfold twf; cbn [tdims tdata]. rewrite map_length. unfold telts. rewrite combine_length.
    rewrite length_indices. unfold twf in Hw. lia.
  - intros jx. unfold tget, telts; cbn.
    assert (forall (l : list (list nat)) (v : list K), length l = length v ->
      dget (combine l (map (fun e => if is_prefix a (fst e) then f (snd e) else snd e) (combine l v))) jx =
      option_map (fun v => if is_prefix a jx then f v else v) (dget (combine l v) jx)) as Hg.
    { induction l as [|b l IH]; intros [|x v] Hlv; cbn in *; try congruence.
      destruct (eq_dec jx b) as [->|Hn]; [reflexivity|apply IH; congruence]. }
    apply Hg; exact Hl. Qed.

Lemma tupdate_ok t (ix : list Z) f p : norm_indices (tdims t) ix = Ok p -> exists t', tupdate t ix f = Ok t'.
Proof. intros Hn; unfold tupdate; rewrite Hn; cbn; eauto. Qed.

Lemma tget_tmap {A B} (f : A -> B) (t : tensor A) ix :
  tget (tmap f t) ix = option_map f (tget t ix).
Proof. unfold tget, telts, tmap; cbn. rewrite combine_map_r.
  induction (combine (indices (tdims t)) (tdata t)) as [|[k v] l IH]; cbn; [reflexivity|].
  destruct (eq_dec ix k); [reflexivity|exact IH]. Qed.

Lemma twf_tmap {A B} (f : A -> B) (t : tensor A) : twf t -> twf (tmap f t).
Proof. unfold twf, tmap; cbn. now rewrite map_length. Qed.

Lemma norm_indices_nat dims ix :
  in_range dims ix -> norm_indices dims (map Z.of_nat ix) = Ok ix.
Proof. induction 1 as [|d i ds ix Hd Hf IH]; cbn; [reflexivity|].
  unfold norm_index.
  replace ((0 <=? Z.of_nat i) && (Z.of_nat i <? Z.of_nat d))%Z with true by lia.
  cbn. rewrite IH; cbn. now rewrite Nat2Z.id. Qed.

Lemma norm_indices_range dims (ix : list Z) p : norm_indices dims ix = Ok p ->
  length ix = length dims -> in_range dims p.
Proof. revert ix p; induction dims as [|d ds IH]; intros [|i ix] p; cbn; intros Hn Hl;
    try congruence.
  - inv Hn; constructor.
  - bind_inv Hn. bind_inv Hn. inv Hn. constructor; [|eapply IH; eauto].
    unfold norm_index in Ha.
    destruct (((0 <=? i) && (i <? Z.of_nat d))%Z) eqn:E1; [inv Ha; lia|].
    destruct (((- Z.of_nat d <=? i) && (i <? 0))%Z) eqn:E2; [inv Ha; lia|discriminate]. Qed.

Lemma in_range_length dims ix : in_range dims ix -> length ix = length dims.
Proof. intros Hr; symmetry; eapply Forall2_len; exact Hr. Qed.

(** ** permutation of indices *)
Lemma is_permb_spec p r : is_permb p r = true <-> Permutation p (seq 0 r).
Proof. unfold is_permb. rewrite andb_true_iff, Nat.eqb_eq, forallb_forall. split.
  - intros [Hl Hf]. symmetry. apply NoDup_Permutation_bis; [apply seq_NoDup|rewrite seq_length; lia|].
    intros k Hk. specialize (Hf k Hk). apply existsb_exists in Hf.
    destruct Hf as (x & Hx & He). apply Nat.eqb_eq in He; subst; exact Hx.
  - intros Hp. split; [rewrite (Permutation_length Hp); apply seq_length|].
    intros k Hk. apply existsb_exists. exists k; split; [|apply Nat.eqb_refl].
    eapply Permutation_in; [symmetry; exact Hp|exact Hk]. Qed.

Lemma pos_nth p k : NoDup p -> k < length p -> pos (nth k p 0) p = k.
Proof. revert k; induction p as [|a p IH]; intros k Hn Hk; cbn in *; [lia|].
  apply NoDup_cons_iff in Hn; destruct Hn as [Ha Hn]. destruct k as [|k].
  - now rewrite Nat.eqb_refl.
  - destruct (Nat.eqb_spec a (nth k p 0)) as [He|He].
    + exfalso; apply Ha; rewrite He; apply nth_In; lia.
    + f_equal; apply IH; [exact Hn|lia]. Qed.

Lemma nth_pos p j : In j p -> nth (pos j p) p 0 = j /\ pos j p < length p.
Proof. induction p as [|a p IH]; cbn; [contradiction|].
  destruct (Nat.eqb_spec a j) as [->|Hn]; [intros _; split; [reflexivity|lia]|].
  intros [He|Hi]; [congruence|]. destruct (IH Hi); split; [assumption|lia]. Qed.

Lemma nth_map_lt {A B} (f : A -> B) l k d d' : k < length l -> nth k (map f l) d = f (nth k l d').
Proof. intros Hk. rewrite nth_indep with (d' := f d') by (rewrite map_length; exact Hk).
  apply map_nth. Qed.

Lemma length_unperm p ix : length (unperm p ix) = length p.
Proof. unfold unperm; now rewrite map_length, seq_length. Qed.

Lemma nth_unperm p ix k : Permutation p (seq 0 (length p)) -> k < length p ->
  nth (nth k p 0) (unperm p ix) 0 = nth k ix 0.
Proof. intros Hp Hk. unfold unperm.
  assert (Hn : NoDup p) by (eapply Permutation_NoDup; [symmetry; exact Hp|apply seq_NoDup]).
  assert (Hj : nth k p 0 < length p).
  { assert (Hi : In (nth k p 0) p) by (apply nth_In; exact Hk).
    eapply Permutation_in in Hi; [|exact Hp]. apply in_seq in Hi; lia. }
  rewrite nth_map_lt with (d' := 0) by (rewrite seq_length; exact Hj).
  rewrite seq_nth by exact Hj. cbn. now rewrite pos_nth. Qed.

Lemma in_range_nth dims ix : in_range dims ix <->
  length dims = length ix /\ forall k, k < length dims -> nth k ix 0 < nth k dims 0.
Proof. split.
  - intros Hr; split; [eapply Forall2_len; exact Hr|]. induction Hr as [|d i ds ix Hd Hf IH]; cbn;
      [lia|]. intros [|k] Hk; [exact Hd|apply IH; lia].
  - revert ix; induction dims as [|d ds IH]; intros [|i ix] [Hl Hk]; cbn in *; try congruence;
      [constructor|].
    constructor; [apply (Hk 0); lia|]. apply IH; split; [congruence|].
    intros k Hlt. apply (Hk (S k)); lia. Qed.

Lemma in_range_unperm p dims ix : Permutation p (seq 0 (length dims)) ->
  in_range (map (fun k => nth k dims 0) p) ix -> in_range dims (unperm p ix).
Proof. intros Hp Hr. assert (Hl := Permutation_length Hp). rewrite seq_length in Hl.
  apply in_range_nth in Hr; rewrite map_length in Hr; destruct Hr as [Hlen Hr].
  apply in_range_nth; rewrite length_unperm; split; [congruence|]. intros j Hj.
  assert (Hi : In j p) by (eapply Permutation_in; [symmetry; exact Hp|apply in_seq; lia]).
  destruct (nth_pos _ _ Hi) as [Hn Hlt].
  rewrite <- Hn at 1. rewrite nth_unperm; [|rewrite Hl; exact Hp|exact Hlt].
  specialize (Hr _ Hlt). rewrite nth_map_lt with (d' := 0) in Hr by exact Hlt.
  rewrite Hn in Hr. exact Hr. Qed.

(** characterisation of [permute] *)
Lemma tpermute_spec z t p t' : twf t -> tpermute z t p = Ok t' ->
  Permutation p (seq 0 (length (tdims t))) /\ twf t' /\
  tdims t' = map (fun k => nth k (tdims t) 0) p /\
  forall ix jx, in_range (tdims t) ix -> length jx = length ix ->
    (forall k, k < length p -> nth k jx 0 = nth (nth k p 0) ix 0) -> tget t' jx = tget t ix.
Proof. unfold tpermute. intros Hw. destruct (is_permb p (length (tdims t))) eqn:E; [|discriminate].
  intros He; inv He. apply is_permb_spec in E.
  assert (Hl := Permutation_length E); rewrite seq_length in Hl.
  split; [exact E|]. split; [apply twf_tbuild|]. split; [reflexivity|].
  intros ix jx Hr Hlen Hk.
  assert (Hu : unperm p jx = ix).
  { apply nth_ext with (d := 0) (d' := 0);
      [rewrite length_unperm; rewrite (in_range_length _ _ Hr); congruence|].
    rewrite length_unperm; intros j Hj.
    assert (Hi : In j p) by (eapply Permutation_in; [symmetry; exact E|apply in_seq; lia]).
    destruct (nth_pos _ _ Hi) as [Hn Hlt]. rewrite <- Hn.
    rewrite nth_unperm; [|rewrite Hl; exact E|exact Hlt]. apply Hk; exact Hlt. }
  rewrite tget_tbuild.
  - rewrite Hu. destruct (tget_Some t ix Hw Hr) as [v ->]; reflexivity.
  - apply in_range_nth; rewrite map_length. split; [rewrite (in_range_length _ _ Hr) in Hlen; congruence|].
    intros k Hlt. rewrite nth_map_lt with (d' := 0) by exact Hlt.
    rewrite Hk by exact Hlt. apply in_range_nth in Hr; destruct Hr as [_ Hr]. apply Hr.
    assert (Hi : In (nth k p 0) p) by (apply nth_In; exact Hlt).
    eapply Permutation_in in Hi; [|exact E]. apply in_seq in Hi; lia. Qed.

Lemma tpermute_id z t : twf t -> tpermute z t (seq 0 (length (tdims t))) = Ok t.
Proof. intros Hw.
  destruct (tpermute z t (seq 0 (length (tdims t)))) as [t'|e] eqn:E.
  - f_equal. destruct (tpermute_spec _ _ _ _ Hw E) as (_ & Hw' & Hd & Hg).
    rewrite seq_length in Hg.
    assert (Hdims : tdims t' = tdims t).
    { rewrite Hd. apply nth_ext with (d := 0) (d' := 0); rewrite map_length, seq_length; [reflexivity|].
      intros k Hk. rewrite nth_map_lt with (d' := 0) by (rewrite seq_length; exact Hk).
      rewrite seq_nth by exact Hk; reflexivity. }
    apply tensor_ext; [exact Hw'|exact Hw|exact Hdims|]. intros ix Hr. rewrite Hdims in Hr.
    apply Hg; [exact Hr|reflexivity|]. intros k Hk. rewrite seq_nth by exact Hk. reflexivity.
  - unfold tpermute in E. rewrite (proj2 (is_permb_spec _ _)) in E; [discriminate|reflexivity]. Qed.
End L.
