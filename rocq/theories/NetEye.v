(** Identity matrices, bonds of dimension one and matrices of two factors in tensor networks. *)
From Verif Require Import Base BaseLemmas Tensor TensorLemmas Net NetSpec NetProofs NetProofs2 NetTrace Corners CornersSpec CorrSpec CorrC4v CorrProofs CorrProofs8.
From Coq Require Import Ring ArithRing Permutation.
Open Scope list_scope.
Open Scope nat_scope.

Section P.
Context {K : Type} (z o : K) (add mul : K -> K -> K).
Hypothesis SR : semi_ring_theory z o add mul eq.
Add Ring KR : SR.
Notation ten := (tensor K).
Notation network := (@network K).
Notation isc D := (is_contraction D z o add mul).

(** only the dimensions of the bonds matter *)
Lemma isc_ext D D' (net : network) out M : (forall q, In q (nvars net) \/ In q (flat_map bonds out) -> D q = D' q) -> isc D net out M -> isc D' net out M.
Proof. intros H (W & Hd & HV). split; [exact W|]. split.
  - rewrite Hd. apply map_ext_in. intros t Ht. apply ldim_ext. intros q Hq. apply H. right. apply in_flat_map. now exists t.
  - intros s Hs. rewrite (sum_ext z add D' D _ _ (product D z o mul net)).
    + rewrite <- HV; [|intros l Hl; rewrite H by tauto; now apply Hs]. f_equal. apply map_ext_in. intros t Ht. apply lval_ext. intros q Hq. symmetry. apply H. right. apply in_flat_map. now exists t.
    + intros q Hq. symmetry. apply H. left. apply In_inner in Hq. exact (proj1 Hq).
    + intros s'. apply product_ext. intros q Hq. symmetry. apply H. now left. Qed.
Definition setD (D : nat -> nat) (k n q : nat) : nat := if q =? k then n else D q.
Lemma setD_same D k n : setD D k n k = n.
Proof. unfold setD. now rewrite Nat.eqb_refl. Qed.
Lemma setD_other D k n q : q <> k -> setD D k n q = D q.
Proof. intros H. unfold setD. now rewrite (proj2 (Nat.eqb_neq _ _) H). Qed.

Variable D : nat -> nat.
Notation product := (product D z o mul).

(** a vector with the single entry 1 *)
Lemma isc_one m (N : network) out M : D m = 1 -> ~ In m (flat_map bonds out) -> isc D ((mkT [1] [o], [V m]) :: N) out M -> isc D N out M.
Proof. intros Hm Ho (W & Hd & HV). split; [exact W|]. split; [exact Hd|]. intros s Hs. rewrite HV by exact Hs. f_equal. clear W Hd HV Hs.
  set (N' := (mkT [1] [o], [V m]) :: N).
  assert (P : forall s', s' m = 0 -> product N' s' = product N s').
  { intros s' E. change (product N' s') with (mul (entry z (mkT [1] [o]) [s' m]) (product N s')). rewrite E. change (entry z (mkT [1] [o]) [0]) with o. ring. }
  destruct (in_dec Nat.eq_dec m (nvars N)) as [I|I].
  - assert (E : Permutation (inner N' out) (inner N out)).
    { apply perm_of_sets; [apply NoDup_inner|apply NoDup_inner|]. intros k. rewrite !In_inner. unfold N', nvars. cbn [flat_map snd bonds app In]. fold (nvars N). intuition subst; auto. }
    rewrite (so_perm z o add mul SR D _ _ _ _ E (product_dep z o mul D N')). apply so_ext. intros s' [_ Hv]. apply P.
    assert (In m (inner N out)) as Hi by (apply In_inner; now split). specialize (Hv m Hi). lia.
  - assert (E : Permutation (inner N' out) (inner N out ++ [m])).
    { apply perm_of_sets; [apply NoDup_inner| |].
      - apply NoDup_app_intro; [apply NoDup_inner|repeat constructor; intros []|]. intros k Hk [<-|[]]. apply In_inner in Hk. tauto.
      - intros k. rewrite in_app_iff, !In_inner. unfold N', nvars. cbn [flat_map snd bonds app In]. fold (nvars N). intuition subst; auto. }
    rewrite (so_perm z o add mul SR D _ _ _ _ E (product_dep z o mul D N')), (so_app z add). apply so_ext. intros s' _. cbn [sum_over]. rewrite Hm.
    unfold sum_list; cbn [seq map fold_right]. rewrite P by apply upd_same. rewrite (product_dep z o mul D N (upd s' m 0) s'); [ring|].
    intros k Hk. unfold upd. destruct (Nat.eqb_spec k m); [subst; contradiction|reflexivity]. Qed.
(** an identity matrix *)
Lemma eye_entry d i j : i < d -> j < d -> entry z (eye z o d) [i; j] = if i =? j then o else z.
Proof. intros Hi Hj. unfold entry, eye. rewrite tget_tbuild; [reflexivity|]. repeat constructor; assumption. Qed.
Lemma sum_pick (G : nat -> K) i d : i < d -> sum_list z add (map (fun j => mul (if i =? j then o else z) (G j)) (seq 0 d)) = G i.
Proof. intros H. assert (X : forall n a, ~ In i (seq a n) -> sum_list z add (map (fun j => mul (if i =? j then o else z) (G j)) (seq a n)) = z).
  { induction n as [|n IH]; intros a Ha; [reflexivity|]. unfold sum_list; cbn [seq map fold_right]. change (fold_right add z) with (sum_list z add). rewrite IH by (intros Y; apply Ha; now right).
    destruct (Nat.eqb_spec i a); [exfalso; apply Ha; now left|ring]. }
  replace d with (i + S (d - S i)) by lia. rewrite seq_app, map_app, (sl_app z o add mul SR), X by (rewrite in_seq; lia). cbn [plus seq map]. unfold sum_list at 1; cbn [fold_right].
  change (fold_right add z) with (sum_list z add). rewrite X by (rewrite in_seq; lia). rewrite Nat.eqb_refl. ring. Qed.
Lemma isc_eye p q d (N : network) out M : D p = d -> D q = d -> p <> q -> ~ In p (flat_map bonds out) -> ~ In q (flat_map bonds out) -> In p (nvars N) ->
  isc D ((eye z o d, [V p; V q]) :: N) out M -> isc D (rnet (glue1 p q) N) out M.
Proof. intros Hp Hq Hpq Op Oq HN (W & Hd & HV). split; [exact W|]. split; [exact Hd|]. intros s Hs. rewrite HV by exact Hs. f_equal. clear W Hd HV Hs.
  set (N' := (eye z o d, [V p; V q]) :: N). set (R := rnet (glue1 p q) N).
  assert (VR : forall k, In k (nvars R) <-> k <> q /\ (In k (nvars N) \/ k = p)).
  { intros k. unfold R. rewrite nvars_ren, in_map_iff. unfold glue1. split.
    - intros (l & El & Hl). destruct (Nat.eqb_spec l q); subst k; [split; auto|split; auto].
    - intros [Hk [Hl| ->]]; [exists k; now rewrite (proj2 (Nat.eqb_neq _ _) Hk)|exists p; now rewrite (proj2 (Nat.eqb_neq _ _) Hpq)]. }
  assert (E : Permutation (inner N' out) (inner R out ++ [q])).
  { apply perm_of_sets; [apply NoDup_inner| |].
    - apply NoDup_app_intro; [apply NoDup_inner|repeat constructor; intros []|]. intros k Hk [<-|[]]. apply In_inner in Hk. destruct Hk as [Hk _]. apply VR in Hk. tauto.
    - intros k. rewrite in_app_iff, !In_inner, VR. unfold N', nvars. cbn [flat_map snd bonds app In]. fold (nvars N).
      destruct (Nat.eq_dec k q); intuition subst; auto; try congruence. }
  rewrite (so_perm z o add mul SR D _ _ _ _ E (product_dep z o mul D N')), (so_app z add). apply so_ext. intros s' [_ Hv]. cbn [sum_over]. rewrite Hq.
  assert (Sp : s' p < d). { rewrite <- Hp. apply Hv. apply In_inner. split; [apply VR; auto|exact Op]. }
  transitivity (sum_list z add (map (fun j => mul (if s' p =? j then o else z) (product N (upd s' q j))) (seq 0 d))).
  - apply sl_ext. intros j Hj. apply in_seq in Hj. change (product N' (upd s' q j)) with (mul (entry z (eye z o d) [upd s' q j p; upd s' q j q]) (product N (upd s' q j))).
    rewrite upd_same. replace (upd s' q j p) with (s' p) by (unfold upd; now rewrite (proj2 (Nat.eqb_neq _ _) Hpq)). rewrite eye_entry by lia. reflexivity.
  - rewrite sum_pick by exact Sp. unfold R. rewrite product_ren. rewrite (product_ext z o mul (Df D (glue1 p q)) D).
    + apply product_dep. intros k _. unfold upd, glue1. destruct (k =? q); reflexivity.
    + intros k _. unfold Df, glue1. destruct (Nat.eqb_spec k q); [subst; congruence|reflexivity]. Qed.
Lemma eye_wf d : twf (eye z o d).
Proof. apply twf_tbuild. Qed.
Lemma eye3_isc p q m d : D p = d -> D q = d -> D m = 1 -> p <> q -> p <> m -> q <> m -> isc D [(eye z o d, [V p; V q]); (mkT [1] [o], [V m])] [V p; V q; V m] (eye3 z o d).
Proof. intros Hp Hq Hm N1 N2 N3. split; [apply twf_tbuild|]. split; [cbn [map ldim]; rewrite Hp, Hq, Hm; reflexivity|]. intros s Hs.
  assert (X : inner [(eye z o d, [V p; V q]); (mkT [1] [o], [V m])] [V p; V q; V m] = []).
  { destruct (inner _ _) as [|k l] eqn:Ek; [reflexivity|]. exfalso. assert (Hk : In k (k :: l)) by now left. rewrite <- Ek in Hk. apply In_inner in Hk. cbn in Hk. tauto. }
  rewrite X. cbn [sum_over map lval]. assert (R1 : s p < d /\ s q < d /\ s m < 1) by (rewrite <- Hp at 1; rewrite <- Hq, <- Hm; repeat split; apply Hs; cbn; tauto).
  destruct R1 as (R1 & R2 & R3). unfold eye3. rewrite tget_tbuild by (repeat (constructor; [assumption|]); constructor). f_equal.
  unfold NetSpec.product, prod_list. cbn [map fst snd lval fold_right]. rewrite eye_entry by assumption. replace (s m) with 0 by lia. change (entry z (mkT [1] [o]) [0]) with o. ring. Qed.
Lemma isc_eye3 p q m d (N : network) out M : D p = d -> D q = d -> D m = 1 -> p <> q -> p <> m -> q <> m ->
  ~ In p (flat_map bonds out) -> ~ In q (flat_map bonds out) -> ~ In m (flat_map bonds out) -> In p (nvars N) ->
  isc D ((eye3 z o d, [V p; V q; V m]) :: N) out M -> isc D (rnet (glue1 p q) N) out M.
Proof. intros Hp Hq Hm N1 N2 N3 O1 O2 O3 HN HI.
  apply (isc_eye p q d) ; try assumption. apply (isc_one m); [exact Hm|exact O3|].
  apply (isc_perm z o add mul SR D _ _ _ _ (perm_swap _ _ _)).
  apply (isc_sub z o add mul SR D [(eye z o d, [V p; V q]); (mkT [1] [o], [V m])] N [V p; V q; V m] out _ M (eye3_isc p q m d Hp Hq Hm N1 N2 N3) HI).
  - intros k. cbn. tauto.
  - intros k Hk. apply In_inner in Hk. cbn in Hk. tauto. Qed.
End P.
