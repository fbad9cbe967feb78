From Verif Require Import Base BaseLemmas Tensor TensorLemmas Net NetSpec NetProofs NetProofs2 Unroll UnrollSpec UnrollProofs.
Open Scope list_scope.
Open Scope nat_scope.
Open Scope res_scope.

Lemma groups_with_two u groups : 2 <= groups_with u groups <-> in_two u groups.
Proof. unfold groups_with, in_two. split.
  - intros H. assert (X : exists g1 a r, groups = g1 ++ a :: r /\ In u a /\ 1 <= length (filter (memb u) r)).
    { induction groups as [|g gs IH]; cbn in H; [lia|]. destruct (memb u g) eqn:E.
      - exists [], g, gs. split; [reflexivity|]. split; [now apply memb_spec|]. cbn in H. lia.
      - destruct (IH H) as (g1 & a & r & -> & Ha & Hl). exists (g :: g1), a, r. auto. }
    destruct X as (g1 & a & r & -> & Ha & Hl).
    assert (X : exists g2 b g3, r = g2 ++ b :: g3 /\ In u b).
    { clear -Hl. induction r as [|g gs IH]; cbn in Hl; [lia|]. destruct (memb u g) eqn:E.
      - exists [], g, gs. split; [reflexivity|]. now apply memb_spec.
      - destruct (IH Hl) as (g2 & b & g3 & -> & Hb). exists (g :: g2), b, g3. auto. }
    destruct X as (g2 & b & g3 & -> & Hb). now exists g1, a, g2, b, g3.
  - intros (g1 & a & g2 & b & g3 & -> & Ha & Hb). apply memb_spec in Ha, Hb.
    rewrite filter_app. cbn. rewrite Ha. rewrite filter_app. cbn. rewrite Hb. rewrite app_length. cbn. rewrite app_length. cbn. lia. Qed.

Lemma two_in_ops {A} u (ops : list (A * list nat)) out : in_two u (map snd ops ++ [out]) -> In u (flat_map snd ops).
Proof. intros H. apply groups_with_two in H. unfold groups_with in H. rewrite filter_app, app_length in H.
  assert (X : 1 <= length (filter (memb u) (map snd ops))).
  { cbn in H. destruct (memb u out); cbn in H; lia. }
  rewrite flat_map_concat_snd. apply in_concat. destruct (filter (memb u) (map snd ops)) as [|g gs] eqn:E; [cbn in X; lia|].
  assert (Y : In g (filter (memb u) (map snd ops))) by (rewrite E; now left).
  apply filter_In in Y. exists g. split; [tauto|]. now apply memb_spec. Qed.

Section Proofs.
Context {K : Type} (z o : K) (add mul : K -> K -> K).
Hypothesis SR : semi_ring_theory z o add mul eq.
Implicit Types (ops : list (tensor K * list nat)).

Lemma einsum_contraction D ops out : (forall op, In op ops -> tdims (fst op) = map D (snd op)) -> NoDup out -> incl out (flat_map snd ops) ->
  exists M, einsum z o add mul ops out = Ok M /\ is_contraction D z o add mul (map (fun op => (fst op, map V (snd op))) ops) (map V out) M.
Proof. intros HL HN HI. destruct (einsum_sum z o add mul SR D ops out HL HN HI) as (M & EM & WM & DM & VM).
  exists M. split; [exact EM|]. split; [exact WM|]. split; [now rewrite map_V_dim|].
  intros s Hs. rewrite bonds_V in Hs. rewrite map_V_val, VM by exact Hs. f_equal.
  transitivity (sum_over D z add (inner (map (fun op => (fst op, map V (snd op))) ops) (map V out)) (prodf z o mul ops) s).
  - apply (so_perm z o add mul SR D _ _ (flat_map snd ops)); [|apply prodf_dep].
    apply NoDup_Permutation; [apply NoDup_summed|apply NoDup_filter, NoDup_nodup|].
    intros l. rewrite In_summed. unfold inner. rewrite filter_In. unfold net_bonds. rewrite nodup_In, bonds_V.
    assert (E : forall l, In l (flat_map (fun f : tensor K * list leg => flat_map bonds (snd f)) (map (fun op => (fst op, map V (snd op))) ops)) <-> In l (flat_map snd ops)).
    { intros k. clear. induction ops as [|op ops IH]; cbn; [tauto|]. now rewrite !in_app_iff, IH, bonds_V. }
    rewrite E. destruct (in_dec Nat.eq_dec l out); split; intros [A B]; (split; [exact A|]); try tauto; discriminate.
  - apply so_ext. intros s' _. unfold prodf, product, nprod, prod_list. f_equal. rewrite map_map. apply map_ext_in.
    intros op Hop. cbn. now rewrite map_V_val. Qed.

Lemma einsum_inv ops out M : einsum z o add mul ops out = Ok M ->
  (forall op, In op ops -> tdims (fst op) = map (assoc (label_dims ops)) (snd op)) /\ NoDup out /\ incl out (flat_map snd ops).
Proof. unfold einsum. destruct (_ && _) eqn:E; [|discriminate]. intros _. repeat rewrite andb_true_iff in E. destruct E as (((E1 & E2) & E3) & E4).
  rewrite forallb_forall in E1, E2, E4. split; [|split; [now apply nodupb_spec|intros l Hl; now apply memb_spec, E4]].
  intros op Hop. assert (L := E1 op Hop). apply Nat.eqb_eq in L.
  assert (C : forall l d, In (l, d) (combine (snd op) (tdims (fst op))) -> d = assoc (label_dims ops) l).
  { intros l d Hd. apply Nat.eqb_eq. apply (E2 (l, d)). unfold label_dims. apply in_flat_map. eauto. }
  revert L C. generalize (tdims (fst op)) as ds. induction (snd op) as [|a ls IH]; intros [|d ds] L C; cbn in *; try discriminate; [reflexivity|].
  f_equal; [apply C; now left|]. apply IH; [lia|]. intros; apply C; now right. Qed.

Lemma unroll_contraction junk ckpt D ops out unroll :
  (forall op, In op ops -> tdims (fst op) = map D (snd op)) -> NoDup out -> incl out (flat_map snd ops) ->
  (forall u, In u unroll -> in_two u (map snd ops ++ [out])) ->
  exists M, contract_with_unroll z o add mul junk ckpt ops out unroll = Ok M /\
    is_contraction D z o add mul (map (fun op => (fst op, map V (snd op))) ops) (map V out) M.
Proof. intros HL HN HI HU. destruct (einsum_contraction D ops out HL HN HI) as (M & EM & CM). exists M. split; [|exact CM].
  rewrite <- EM. apply (unroll_ok z o add mul SR D); auto.
  - intros l Hl. eapply two_in_ops, HU, Hl.
  - intros l Hl. now apply groups_with_two, HU. Qed.

Lemma unroll_plain junk ckpt ops out unroll M : (forall u, In u unroll -> in_two u (map snd ops ++ [out])) ->
  einsum z o add mul ops out = Ok M -> contract_with_unroll z o add mul junk ckpt ops out unroll = Ok M.
Proof. intros HU HM. destruct (einsum_inv _ _ _ HM) as (HL & HN & HI). rewrite <- HM.
  apply (unroll_ok z o add mul SR (assoc (label_dims ops))); auto.
  - intros l Hl. eapply two_in_ops, HU, Hl.
  - intros l Hl. now apply groups_with_two, HU. Qed.

Lemma unroll_rejects junk ckpt ops out unroll u : In u unroll -> ~ in_two u (map snd ops ++ [out]) ->
  contract_with_unroll z o add mul junk ckpt ops out unroll = Err AssertionError.
Proof. intros Hu HN. unfold contract_with_unroll. destruct unroll as [|a ul]; [destruct Hu|].
  replace (forallb _ (a :: ul)) with false; [reflexivity|]. symmetry. apply not_true_iff_false. rewrite forallb_forall.
  intros X. apply HN, groups_with_two, Nat.leb_le, X, Hu. Qed.
End Proofs.
