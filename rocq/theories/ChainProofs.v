(** The periodic chain of tensors of transferops.py and transferops_c4v.py. *)
From Coq Require Import Reals.
From Verif Require Import Base BaseLemmas Tensor TensorLemmas Net NetSpec NetProofs NetProofs2 NetProofs3 CornersSpec CorrProofs NetDot NetDot2 Transfer.
From Coq Require Import Ring Permutation.
Open Scope list_scope.
Open Scope nat_scope.
Open Scope res_scope.

Lemma next_mod L k : k < L -> S k mod L = if S k =? L then 0 else S k.
Proof. intros H. destruct (Nat.eqb_spec (S k) L) as [->|E]; [apply Nat.mod_same; lia|apply Nat.mod_small; lia]. Qed.
Ltac memb_tac := repeat match goal with
  | H : In _ (_ ++ _) |- _ => apply in_app_iff in H
  | H : _ \/ _ |- _ => destruct H as [H|H]
  | H : In _ (rev _) |- _ => apply in_rev in H
  | H : In _ (map _ _) |- _ => apply in_map_iff in H; destruct H as (? & ? & H)
  | H : In _ (seq _ _) |- _ => apply in_seq in H
  | H : In _ (_ :: _) |- _ => cbn [In] in H
  | H : In _ [] |- _ => destruct H
  | H : False |- _ => destruct H
  end.

Section Chain.
Context {K : Type} (z o : K) (add mul : K -> K -> K).
Hypothesis SR : semi_ring_theory z o add mul eq.
Variable D : nat -> nat.
Notation isc := (is_contraction D z o add mul).
Notation network := (@network K).
Notation contract := (tensordot z o add mul).
Variables (a b c : nat).
Hypothesis (Ha : a < 5) (Hb : b < 5) (Hc : c < 5) (Hab : a <> b) (Hac : a <> c) (Hbc : b <> c).
Let x (k : nat) := 5 * k + a.
Let p (k : nat) := 5 * k + b.
Let q (k : nat) := 5 * k + c.
Variable L : nat.
Hypothesis HL : 2 <= L.
Let xn (k : nat) := x (S k mod L).
Variables (n : nat -> network) (t : nat -> tensor K).
Hypothesis Ht : forall k, k < L -> isc (n k) (map V [x k; xn k; p k; q k]) (t k).
Hypothesis Hn : forall k l, k < L -> In l (nvars (n k)) <-> In l [x k; xn k; p k; q k].
Context {A : Type}.
Variables (tensor_at : A -> res (tensor K)) (next : A -> res A) (cs : nat -> A).
Hypothesis Hat : forall k, k < L -> tensor_at (cs k) = Ok (t k).
Hypothesis Hnext : forall k, S k < L -> next (cs k) = Ok (cs (S k)).

Lemma xn_S k : S k < L -> xn k = x (S k).
Proof. intros H. unfold xn. rewrite next_mod by lia. destruct (Nat.eqb_spec (S k) L); [lia|reflexivity]. Qed.
Lemma xn_last : xn (L - 1) = x 0.
Proof. unfold xn. rewrite next_mod by lia. destruct (Nat.eqb_spec (S (L - 1)) L); [reflexivity|lia]. Qed.
Lemma inner_n k : k < L -> inner (n k) (map V [x k; xn k; p k; q k]) = [].
Proof. intros H. destruct (inner _ _) as [|l r] eqn:E; [reflexivity|]. exfalso. assert (X : In l (l :: r)) by now left. rewrite <- E in X. apply In_inner in X. rewrite fbonds_V in X. destruct X as [X1 X2]. apply (Hn k l H) in X1. tauto. Qed.

(** ** acting on a tensor *)
Section Act.
Variables (N0 : network) (E0 : tensor K).
Notation qs i m := (map q (seq i m)).
Notation ps i := (rev (map p (seq 0 i))).
Hypothesis H0 : isc N0 (map V (qs 0 L)) E0.
Hypothesis I0 : incl (qs 0 L) (nvars N0).
Hypothesis X0 : forall l k, In l (inner N0 (map V (qs 0 L))) -> l <> x k /\ l <> p k /\ l <> q k.
Let nets (i : nat) : network := flat_map n (rev (seq 0 i)) ++ N0.
Let outs (i : nat) : list nat := x i :: (ps i ++ qs i (L - i)) ++ [x 0].

Lemma nets_S i : nets (S i) = n i ++ nets i.
Proof. unfold nets. rewrite seq_S, rev_app_distr. cbn [rev app flat_map Nat.add]. now rewrite app_assoc. Qed.
Lemma N0_vars l : In l (nvars N0) -> In l (qs 0 L) \/ (forall k, l <> x k /\ l <> p k /\ l <> q k).
Proof. intros H. destruct (in_dec Nat.eq_dec l (qs 0 L)) as [Hq|Hq]; [now left|right]. intros k. apply X0. apply In_inner. rewrite fbonds_V. now split. Qed.
Lemma nets_vars i l : i < L -> In l (nvars (nets i)) -> (exists k, k < i /\ (l = x k \/ l = x (S k) \/ l = p k)) \/ In l (qs 0 L) \/ (forall k, l <> x k /\ l <> p k /\ l <> q k).
Proof. intros Hi H. unfold nets in H. rewrite nvars_app, in_app_iff in H. destruct H as [H|H]; [|right; now apply N0_vars].
  unfold nvars in H. rewrite flat_map_concat_map in H. apply in_concat in H. destruct H as (r & Hr & Hl). apply in_map_iff in Hr. destruct Hr as (f & <- & Hf).
  apply in_flat_map in Hf. destruct Hf as (k & Hk & Hf). apply in_rev, in_seq in Hk.
  assert (X : In l (nvars (n k))) by (unfold nvars; apply in_flat_map; eauto). apply Hn in X; [|lia]. cbn [In] in X. rewrite xn_S in X by lia.
  destruct X as [<-|[<-|[<-|[<-|[]]]]]; [left; exists k; split; [lia|tauto]..|]. right. left. apply in_map, in_seq. lia. Qed.
Lemma nets_has i k l : k < i -> In l (nvars (n k)) -> In l (nvars (nets i)).
Proof. intros Hk Hl. unfold nets. rewrite nvars_app, in_app_iff. left. unfold nvars in *. apply in_flat_map in Hl. destruct Hl as (f & Hf & Hl). apply in_flat_map. exists f. split; [|exact Hl].
  apply in_flat_map. exists k. split; [apply in_rev; rewrite rev_involutive; apply in_seq; lia|exact Hf]. Qed.
Lemma nets_incl i : 1 <= i < L -> incl (outs i) (nvars (nets i)).
Proof. intros Hi l Hl. unfold outs in Hl. memb_tac.
  - subst l. apply (nets_has i (i - 1)); [lia|]. apply Hn; [lia|]. right. left. rewrite xn_S by lia. f_equal. lia.
  - subst l. apply (nets_has i x0); [lia|]. apply Hn; [lia|]. right. right. now left.
  - subst l. unfold nets. rewrite nvars_app, in_app_iff. right. apply I0. apply in_map, in_seq. lia.
  - subst l. apply (nets_has i 0); [lia|]. apply Hn; [lia|]. now left. Qed.
Lemma inner_step i l : 1 <= i < L -> In l (inner (nets i) (map V (outs i))) -> ~ In l (nvars (n i)).
Proof. intros Hi H X. apply In_inner in H. rewrite fbonds_V in H. destruct H as [H1 H2]. apply Hn in X; [|lia]. cbn [In] in X. unfold outs in H2. apply nets_vars in H1; [|lia].
  destruct X as [<-|[<-|[<-|[<-|[]]]]].
  - apply H2. now left.
  - unfold xn in *. rewrite next_mod in * by lia. destruct (Nat.eqb_spec (S i) L) as [E|E].
    + apply H2. right. apply in_app_iff. right. now left.
    + destruct H1 as [(k & Hk & [Y|[Y|Y]])|[Y|Y]]; [unfold x, p in *; lia..| |destruct (Y (S i)) as [Y1 _]; now apply Y1]. memb_tac. unfold x, q in *. lia.
  - destruct H1 as [(k & Hk & [Y|[Y|Y]])|[Y|Y]]; [unfold x, p in *; lia..| |destruct (Y i) as [_ [Y1 _]]; now apply Y1]. apply in_map_iff in Y. destruct Y as (j & Y & _). unfold p, q in *. lia.
  - apply H2. right. apply in_app_iff. left. apply in_app_iff. right. apply in_map, in_seq. lia. Qed.
Lemma NoDup_ps i : NoDup (ps i).
Proof. apply NoDup_rev, FinFun.Injective_map_NoDup; [intros j k; unfold p; lia|apply seq_NoDup]. Qed.
Lemma NoDup_qs i m : NoDup (qs i m).
Proof. apply FinFun.Injective_map_NoDup; [intros j k; unfold q; lia|apply seq_NoDup]. Qed.
Lemma NoDup_step i m : 1 <= i -> NoDup ([x i; x (S i); p i; q i] ++ (ps i ++ qs (S i) m) ++ [x 0]).
Proof. intros Hi. apply NoDup_app_intro; [|apply NoDup_app_intro; [apply NoDup_app_intro; [apply NoDup_ps|apply NoDup_qs|]|repeat constructor; cbn; tauto|]|].
  - repeat (constructor; [cbn [In]; unfold x, p, q; lia|]). constructor.
  - intros l H1 H2. memb_tac. unfold p, q in *. lia.
  - intros l H1 H2. memb_tac; unfold x, p, q in *; lia.
  - intros l H1 H2. memb_tac; unfold x, p, q in *; lia. Qed.
Lemma len_ps i : length (map V (ps i)) = i.
Proof. now rewrite map_length, rev_length, map_length, seq_length. Qed.
Lemma ps_S i : ps (S i) = p i :: ps i.
Proof. rewrite seq_S, map_app, rev_app_distr. reflexivity. Qed.
Lemma qs_cons i : i < L -> qs i (L - i) = q i :: qs (S i) (L - S i).
Proof. intros H. replace (L - i) with (S (L - S i)) by lia. reflexivity. Qed.
(** one more tensor *)
Lemma chain_step i E : 1 <= i -> S i < L -> isc (nets i) (map V (outs i)) E ->
  exists R, contract (t i) E [0;3] [0;i + 1] = Ok R /\ isc (nets (S i)) (map V (outs (S i))) R.
Proof. intros H1 H2 HE.
  assert (EO : map V (outs i) = V (x i) :: map V (ps i) ++ V (q i) :: map V (qs (S i) (L - S i) ++ [x 0])).
  { unfold outs. rewrite qs_cons by lia. rewrite <- app_assoc. cbn [map app]. f_equal. rewrite map_app. f_equal. }
  assert (ER : rest (map V (outs i)) [0; i + 1] = map V ((ps i ++ qs (S i) (L - S i)) ++ [x 0])).
  { rewrite EO. replace (i + 1) with (length (map V (ps i)) + 1) by (now rewrite len_ps). rewrite rest_mid. rewrite <- map_app, app_assoc. reflexivity. }
  destruct (isc_join z o add mul SR D (n i) (map V [x i; xn i; p i; q i]) (t i) (nets i) (map V (outs i)) E [0;3] [0;i + 1]) as (R & E1 & E2).
  - apply Ht. lia.
  - exact HE.
  - repeat constructor; cbn; intuition lia.
  - repeat constructor; cbn; intuition lia.
  - reflexivity.
  - cbn. intros k [<-|[<-|[]]]; lia.
  - rewrite map_length. unfold outs. cbn [length]. rewrite !app_length, rev_length, !map_length, !seq_length. cbn [length]. intros k [<-|[<-|[]]]; lia.
  - rewrite EO. cbn [legs_at map nth]. f_equal. f_equal. replace (i + 1) with (S (length (map V (ps i)))) by (rewrite len_ps; lia). cbn [nth]. rewrite nth_middle. reflexivity.
  - rewrite ER, <- map_app, fbonds_V. rewrite xn_S by lia. apply NoDup_step. lia.
  - rewrite fbonds_V. intros l Hl. apply Hn; [lia|exact Hl].
  - rewrite fbonds_V. apply nets_incl. lia.
  - intros l Hl. rewrite inner_n in Hl by lia. destruct Hl.
  - intros l Hl. apply (inner_step i l); [lia|exact Hl].
  - exists R. split; [exact E1|]. rewrite nets_S. rewrite ER in E2. change (rest (map V [x i; xn i; p i; q i]) [0;3]) with [V (xn i); V (p i)] in E2. rewrite xn_S in E2 by lia.
    unfold outs. rewrite ps_S. exact E2. Qed.
Lemma chain_loop_ok m : forall i E, 1 <= i -> i + m < L -> isc (nets i) (map V (outs i)) E ->
  exists R, chain_loop z o add mul tensor_at next m i (cs (i - 1)) E = Ok (cs (i + m - 1), R) /\ isc (nets (i + m)) (map V (outs (i + m))) R.
Proof. induction m as [|m IH]; intros i E H1 H2 HE; cbn [chain_loop].
  - exists E. rewrite Nat.add_0_r. split; [reflexivity|exact HE].
  - assert (EN := Hnext (i - 1)). replace (S (i - 1)) with i in EN by lia. rewrite EN by lia. cbn [bind]. rewrite Hat by lia. cbn [bind].
    destruct (chain_step i E) as (R & E1 & E2); [lia|lia|exact HE|]. rewrite E1. cbn [bind].
    destruct (IH (S i) R) as (R' & E3 & E4); [lia|lia|exact E2|]. rewrite (Nat.sub_0_r i) in E3 || replace (S i - 1) with i in E3 by lia. exists R'. rewrite E3. split; [do 3 f_equal; lia|]. now rewrite Nat.add_succ_r. Qed.
Lemma chain_mv_ok : exists R, chain_mv z o add mul tensor_at next L (cs 0) E0 = Ok R /\ isc (flat_map n (seq 0 L) ++ N0) (map V (map p (seq 0 L))) R.
Proof. unfold chain_mv. rewrite Hat by lia. cbn [bind].
  assert (EQ : map V (qs 0 L) = V (q 0) :: map V (qs 1 (L - 1))).
  { replace L with (S (L - 1)) at 1 by lia. reflexivity. }
  destruct (isc_join z o add mul SR D (n 0) (map V [x 0; xn 0; p 0; q 0]) (t 0) N0 (map V (qs 0 L)) E0 [3] [0]) as (R & E1 & E2).
  { apply Ht. lia. } { exact H0. } { repeat constructor; cbn; tauto. } { repeat constructor; cbn; tauto. } { reflexivity. }
  { cbn. intros k [<-|[]]. lia. } { rewrite !map_length, seq_length. intros k [<-|[]]. lia. } { rewrite EQ. reflexivity. }
  { rewrite EQ, rest_0, <- map_app, fbonds_V. rewrite xn_S by lia. apply NoDup_app_intro; [|apply NoDup_qs|].
    - repeat (constructor; [cbn [In]; unfold x, p, q; lia|]). constructor.
    - intros l H1 H2. memb_tac; unfold x, p, q in *; lia. }
  { rewrite fbonds_V. intros l Hl. apply Hn; [lia|exact Hl]. } { rewrite fbonds_V. exact I0. }
  { intros l Hl. rewrite inner_n in Hl by lia. destruct Hl. }
  { intros l Hl Hl'. apply Hn in Hl'; [|lia]. cbn [In] in Hl'. rewrite xn_S in Hl' by lia. destruct Hl' as [<-|[<-|[<-|[<-|[]]]]].
    - destruct (X0 _ 0 Hl) as [Y _]. now apply Y.
    - destruct (X0 _ 1 Hl) as [Y _]. now apply Y.
    - destruct (X0 _ 0 Hl) as [_ [Y _]]. now apply Y.
    - destruct (X0 _ 0 Hl) as [_ [_ Y]]. now apply Y. }
  rewrite E1. cbn [bind]. rewrite EQ, rest_0 in E2. change (rest (map V [x 0; xn 0; p 0; q 0]) [3]) with [V (x 0); V (xn 0); V (p 0)] in E2. rewrite xn_S in E2 by lia. cbn [app] in E2.
  destruct (isc_permute z o add mul SR D _ _ R ([1;2] ++ seq 3 (L - 1) ++ [0]) E2) as (R' & E3 & E4).
  { cbn [length]. rewrite !map_length, seq_length. cbn [seq app]. apply perm_of_sets.
    - apply (NoDup_app_intro [1;2]); [repeat constructor; cbn; intuition lia|apply NoDup_app_intro; [apply seq_NoDup|repeat constructor; cbn; tauto|]|].
      + intros l H1 H2. memb_tac. lia.
      + intros l H1 H2. memb_tac; lia.
    - apply (seq_NoDup (3 + (L - 1)) 0).
    - intros k. change (0 :: 1 :: 2 :: seq 3 (L - 1)) with (seq 0 (3 + (L - 1))). rewrite in_seq. cbn [In]. rewrite in_app_iff, in_seq. cbn [In]. lia. }
  rewrite E3. cbn [bind].
  assert (EP : legs_at (V (x 0) :: V (x 1) :: V (p 0) :: map V (qs 1 (L - 1))) ([1;2] ++ seq 3 (L - 1) ++ [0]) = map V (outs 1)).
  { rewrite !legs_at_app. assert (ES := legs_at_shift [V (x 0); V (x 1); V (p 0)] (map V (qs 1 (L - 1))) 3 (L - 1) eq_refl).
    rewrite !map_length, seq_length in ES. cbn [app] in ES. rewrite ES by lia. rewrite firstn_all2 by (now rewrite !map_length, seq_length). cbn [legs_at map nth app]. unfold outs. cbn [seq map rev app]. rewrite map_app. reflexivity. }
  rewrite EP in E4. assert (E4' : isc (nets 1) (map V (outs 1)) R') by (rewrite nets_S; exact E4). clear E4.
  destruct (chain_loop_ok (L - 2) 1 R') as (R2 & E5 & E6); [lia|lia|exact E4'|]. cbn [Nat.sub] in E5. rewrite E5. cbn [bind].
  assert (EN := Hnext (L - 2)). replace (S (L - 2)) with (L - 1) in EN by lia. replace (1 + (L - 2) - 1) with (L - 2) by lia. rewrite EN by lia. cbn [bind]. rewrite Hat by lia. cbn [bind].
  replace (1 + (L - 2)) with (L - 1) in E6 by lia.
  assert (EO : map V (outs (L - 1)) = V (x (L - 1)) :: map V (ps (L - 1)) ++ [V (q (L - 1)); V (x 0)]).
  { unfold outs. replace (L - (L - 1)) with 1 by lia. rewrite <- app_assoc. cbn [map app]. f_equal. rewrite map_app. reflexivity. }
  assert (ER : rest (map V (outs (L - 1))) [0; L - 1 + 1; L - 1 + 2] = map V (ps (L - 1))).
  { rewrite EO. replace (L - 1 + 1) with (length (map V (ps (L - 1))) + 1) by (now rewrite len_ps). replace (L - 1 + 2) with (length (map V (ps (L - 1))) + 2) by (now rewrite len_ps). apply rest_end. }
  destruct (isc_join z o add mul SR D (n (L - 1)) (map V [x (L - 1); xn (L - 1); p (L - 1); q (L - 1)]) (t (L - 1)) (nets (L - 1)) (map V (outs (L - 1))) R2 [0;3;1] [0; L - 1 + 1; L - 1 + 2]) as (R3 & E7 & E8).
  { apply Ht. lia. } { exact E6. } { repeat constructor; cbn; intuition lia. } { repeat constructor; cbn; intuition lia. } { reflexivity. }
  { cbn. intros k [<-|[<-|[<-|[]]]]; lia. } { rewrite EO. cbn [length]. rewrite app_length, len_ps. cbn [length]. intros k [<-|[<-|[<-|[]]]]; lia. }
  { rewrite EO. cbn [legs_at map nth]. rewrite xn_last. replace (L - 1 + 1) with (S (length (map V (ps (L - 1))))) by (rewrite len_ps; lia). replace (L - 1 + 2) with (S (length (map V (ps (L - 1))) + 1)) by (rewrite len_ps; lia). cbn [nth].
    rewrite nth_middle. rewrite app_nth2_plus. reflexivity. }
  { rewrite ER, <- map_app, fbonds_V. rewrite xn_last. apply NoDup_app_intro; [|apply NoDup_ps|].
    - repeat (constructor; [cbn [In]; unfold x, p, q; lia|]). constructor.
    - intros l H1 H2. memb_tac; unfold x, p, q in *; lia. }
  { rewrite fbonds_V. intros l Hl. apply Hn; [lia|exact Hl]. } { rewrite fbonds_V. apply nets_incl. lia. }
  { intros l Hl. rewrite inner_n in Hl by lia. destruct Hl. }
  { intros l Hl. apply (inner_step (L - 1) l); [lia|exact Hl]. }
  rewrite E7. cbn [bind]. rewrite ER in E8. change (rest (map V [x (L - 1); xn (L - 1); p (L - 1); q (L - 1)]) [0;3;1]) with [V (p (L - 1))] in E8.
  assert (EF : [V (p (L - 1))] ++ map V (ps (L - 1)) = map V (ps L)).
  { replace L with (S (L - 1)) at 3 by lia. rewrite ps_S. reflexivity. }
  rewrite EF in E8. rewrite <- nets_S in E8. replace (S (L - 1)) with L in E8 by lia.
  destruct (isc_permute z o add mul SR D _ _ R3 (rev (seq 0 L)) E8) as (R4 & E9 & E10).
  { rewrite len_ps. symmetry. apply Permutation_rev. }
  exists R4. split; [exact E9|]. replace (rev (seq 0 L)) with (rev (seq 0 (length (map V (ps L))))) in E10 by (now rewrite len_ps). rewrite legs_at_rev, <- map_rev, rev_involutive in E10.
  revert E10. apply (isc_perm z o add mul SR D). unfold nets. apply Permutation_app_tail. apply Permutation_flat_map. symmetry. apply Permutation_rev. Qed.
End Act.

(** ** as a matrix *)
Section Sigma.
Let pairs (i : nat) : list nat := flat_map (fun k => [p k; q k]) (rev (seq 0 i)).
Let nets (i : nat) : network := flat_map n (rev (seq 0 i)).
Let outs (i : nat) : list nat := x i :: pairs i ++ [x 0].
Lemma s_nets_S i : nets (S i) = n i ++ nets i.
Proof. unfold nets. rewrite seq_S, rev_app_distr. reflexivity. Qed.
Lemma pairs_S i : pairs (S i) = [p i; q i] ++ pairs i.
Proof. unfold pairs. rewrite seq_S, rev_app_distr. reflexivity. Qed.
Lemma In_pairs l i : In l (pairs i) -> exists k, k < i /\ (l = p k \/ l = q k).
Proof. unfold pairs. intros H. apply in_flat_map in H. destruct H as (k & Hk & H). apply in_rev, in_seq in Hk. exists k. cbn [In] in H. split; [lia|]. intuition. Qed.
Lemma len_pairs i : length (pairs i) = 2 * i.
Proof. induction i as [|i IH]; [reflexivity|]. rewrite pairs_S. cbn [app length]. rewrite IH. lia. Qed.
Lemma NoDup_pairs i : NoDup (pairs i).
Proof. induction i as [|i IH]; [constructor|]. rewrite pairs_S. apply NoDup_app_intro; [|exact IH|].
  - repeat (constructor; [cbn [In]; unfold p, q; lia|]). constructor.
  - intros l H1 H2. apply In_pairs in H2. destruct H2 as (k & Hk & H2). memb_tac; unfold p, q in *; lia. Qed.
Lemma s_nets_vars i l : i < L -> In l (nvars (nets i)) -> exists k, k < i /\ (l = x k \/ l = x (S k) \/ l = p k \/ l = q k).
Proof. intros Hi H. unfold nets, nvars in H. rewrite flat_map_concat_map in H. apply in_concat in H. destruct H as (r & Hr & Hl). apply in_map_iff in Hr. destruct Hr as (f & <- & Hf).
  apply in_flat_map in Hf. destruct Hf as (k & Hk & Hf). apply in_rev, in_seq in Hk.
  assert (X : In l (nvars (n k))) by (unfold nvars; apply in_flat_map; eauto). apply Hn in X; [|lia]. cbn [In] in X. rewrite xn_S in X by lia. exists k. split; [lia|]. intuition. Qed.
Lemma s_nets_has i k l : k < i -> In l (nvars (n k)) -> In l (nvars (nets i)).
Proof. intros Hk Hl. unfold nets, nvars in *. apply in_flat_map in Hl. destruct Hl as (f & Hf & Hl). apply in_flat_map. exists f. split; [|exact Hl].
  apply in_flat_map. exists k. split; [apply in_rev; rewrite rev_involutive; apply in_seq; lia|exact Hf]. Qed.
Lemma s_nets_incl i : 1 <= i < L -> incl (outs i) (nvars (nets i)).
Proof. intros Hi l [<-|Hl]; [|apply in_app_iff in Hl; destruct Hl as [Hl|[<-|[]]]].
  - apply (s_nets_has i (i - 1)); [lia|]. apply Hn; [lia|]. right. left. rewrite xn_S by lia. f_equal. lia.
  - apply In_pairs in Hl. destruct Hl as (k & Hk & Hl). apply (s_nets_has i k); [lia|]. apply Hn; [lia|]. cbn [In]. intuition.
  - apply (s_nets_has i 0); [lia|]. apply Hn; [lia|]. now left. Qed.
Lemma pairs_has k i : k < i -> In (p k) (pairs i) /\ In (q k) (pairs i).
Proof. intros H. unfold pairs. split; apply in_flat_map; exists k; (split; [apply in_rev; rewrite rev_involutive; apply in_seq; lia|cbn; auto]). Qed.
Lemma s_inner_step i l : 1 <= i < L -> In l (inner (nets i) (map V (outs i))) -> ~ In l (nvars (n i)).
Proof. intros Hi H X. apply In_inner in H. rewrite fbonds_V in H. destruct H as [H1 H2]. apply Hn in X; [|lia]. cbn [In] in X. unfold outs in H2. apply s_nets_vars in H1; [|lia]. destruct H1 as (k & Hk & H1).
  assert (H3 : l <> x 0) by (intros ->; apply H2; right; apply in_app_iff; right; now left).
  assert (H4 : l <> x i) by (intros ->; apply H2; now left).
  destruct X as [<-|[<-|[<-|[<-|[]]]]]; [now apply H4| |unfold x, p, q in *; lia..].
  unfold xn in *. rewrite next_mod in * by lia. destruct (Nat.eqb_spec (S i) L); [now apply H3|unfold x, p, q in *; lia]. Qed.
Lemma sigma_step i E : 1 <= i -> S i < L -> isc (nets i) (map V (outs i)) E ->
  exists R, contract (t i) E [0] [0] = Ok R /\ isc (nets (S i)) (map V (outs (S i))) R.
Proof. intros H1 H2 HE.
  assert (ER : rest (map V (outs i)) [0] = map V (pairs i ++ [x 0])) by (unfold outs; cbn [map]; apply rest_0).
  destruct (isc_join z o add mul SR D (n i) (map V [x i; xn i; p i; q i]) (t i) (nets i) (map V (outs i)) E [0] [0]) as (R & E1 & E2).
  { apply Ht. lia. } { exact HE. } { repeat constructor; cbn; tauto. } { repeat constructor; cbn; tauto. } { reflexivity. }
  { cbn. intros k [<-|[]]; lia. } { unfold outs. cbn [map length]. intros k [<-|[]]; lia. } { reflexivity. }
  { rewrite ER, <- map_app, fbonds_V. rewrite xn_S by lia. apply NoDup_app_intro; [|apply NoDup_app_intro; [apply NoDup_pairs|repeat constructor; cbn; tauto|]|].
    - repeat (constructor; [cbn [In]; unfold x, p, q; lia|]). constructor.
    - intros l X1 X2. apply In_pairs in X1. destruct X1 as (k & Hk & X1). memb_tac; unfold x, p, q in *; lia.
    - intros l X1 X2. apply in_app_iff in X2. destruct X2 as [X2|X2]; [apply In_pairs in X2; destruct X2 as (k & Hk & X2)|]; memb_tac; unfold x, p, q in *; lia. }
  { rewrite fbonds_V. intros l Hl. apply Hn; [lia|exact Hl]. } { rewrite fbonds_V. apply s_nets_incl. lia. }
  { intros l Hl. rewrite inner_n in Hl by lia. destruct Hl. } { intros l Hl. apply (s_inner_step i l); [lia|exact Hl]. }
  exists R. split; [exact E1|]. rewrite s_nets_S. rewrite ER in E2. change (rest (map V [x i; xn i; p i; q i]) [0]) with [V (xn i); V (p i); V (q i)] in E2. rewrite xn_S in E2 by lia.
  unfold outs. rewrite pairs_S. exact E2. Qed.
Lemma sigma_loop_ok m : forall i E, 1 <= i -> i + m < L -> isc (nets i) (map V (outs i)) E ->
  exists R, sigma_loop z o add mul tensor_at next m (cs (i - 1)) E = Ok (cs (i + m - 1), R) /\ isc (nets (i + m)) (map V (outs (i + m))) R.
Proof. induction m as [|m IH]; intros i E H1 H2 HE; cbn [sigma_loop].
  - exists E. rewrite Nat.add_0_r. split; [reflexivity|exact HE].
  - assert (EN := Hnext (i - 1)). replace (S (i - 1)) with i in EN by lia. rewrite EN by lia. cbn [bind]. rewrite Hat by lia. cbn [bind].
    destruct (sigma_step i E) as (R & E1 & E2); [lia|lia|exact HE|]. rewrite E1. cbn [bind].
    destruct (IH (S i) R) as (R' & E3 & E4); [lia|lia|exact E2|]. replace (S i - 1) with i in E3 by lia. exists R'. rewrite E3. split; [do 3 f_equal; lia|]. now rewrite Nat.add_succ_r. Qed.
Lemma evens f g (l : list nat) : legs_at (map V (flat_map (fun k => [f k; g k]) l)) (map (fun k => 2 * k) (seq 0 (length l))) = map V (map f l).
Proof. induction l as [|k l IH]; [reflexivity|]. cbn [length seq map flat_map app]. rewrite <- seq_shift, map_map. unfold legs_at in *. cbn [map]. rewrite map_map in *. f_equal. rewrite <- IH. apply map_ext. intros j. replace (2 * S j) with (S (S (2 * j))) by lia. reflexivity. Qed.
Lemma odds f g (l : list nat) : legs_at (map V (flat_map (fun k => [f k; g k]) l)) (map (fun k => 2 * k + 1) (seq 0 (length l))) = map V (map g l).
Proof. induction l as [|k l IH]; [reflexivity|]. cbn [length seq map flat_map app]. rewrite <- seq_shift, map_map. unfold legs_at in *. cbn [map]. rewrite map_map in *. f_equal. rewrite <- IH. apply map_ext. intros j. replace (2 * S j + 1) with (S (S (2 * j + 1))) by lia. reflexivity. Qed.
(** the tensor before the last view *)
Lemma get_sigma_ok ad : (forall k, k < L -> D (p k) = ad /\ D (q k) = ad) ->
  exists R, get_sigma z o add mul tensor_at next L (cs 0) = Ok (mkT [ad ^ L; ad ^ L] (tdata R)) /\
  isc (flat_map n (seq 0 L)) (map V (rev (map p (seq 0 L)) ++ rev (map q (seq 0 L)))) R.
Proof. intros HD. unfold get_sigma. rewrite Hat by lia. cbn [bind].
  destruct (isc_permute z o add mul SR D _ _ (t 0) [1;2;3;0] (Ht 0 ltac:(lia))) as (R & E1 & E2).
  { cbn [map length]. apply is_permb_spec. reflexivity. }
  rewrite E1. cbn [bind]. cbn [legs_at map nth] in E2. rewrite xn_S in E2 by lia.
  assert (E2' : isc (nets 1) (map V (outs 1)) R) by (unfold nets, outs; cbn [seq rev flat_map app]; rewrite app_nil_r; exact E2). clear E2.
  destruct (sigma_loop_ok (L - 2) 1 R) as (R2 & E5 & E6); [lia|lia|exact E2'|]. cbn [Nat.sub] in E5. rewrite E5. cbn [bind].
  assert (EN := Hnext (L - 2)). replace (S (L - 2)) with (L - 1) in EN by lia. replace (1 + (L - 2) - 1) with (L - 2) by lia. rewrite EN by lia. cbn [bind]. rewrite Hat by lia. cbn [bind].
  replace (1 + (L - 2)) with (L - 1) in E6 by lia.
  assert (EL : 2 * L - 1 = length (map V (pairs (L - 1))) + 1) by (rewrite map_length, len_pairs; lia).
  assert (EO : map V (outs (L - 1)) = V (x (L - 1)) :: map V (pairs (L - 1)) ++ [V (x 0)]) by (unfold outs; cbn [map]; rewrite map_app; reflexivity).
  assert (ER : rest (map V (outs (L - 1))) [0; 2 * L - 1] = map V (pairs (L - 1))) by (rewrite EO, EL; apply rest_ends).
  destruct (isc_join z o add mul SR D (n (L - 1)) (map V [x (L - 1); xn (L - 1); p (L - 1); q (L - 1)]) (t (L - 1)) (nets (L - 1)) (map V (outs (L - 1))) R2 [0;1] [0; 2 * L - 1]) as (R3 & E7 & E8).
  { apply Ht. lia. } { exact E6. } { repeat constructor; cbn; intuition lia. } { repeat constructor; cbn; intuition lia. } { reflexivity. }
  { cbn. intros k [<-|[<-|[]]]; lia. } { rewrite EO, EL. cbn [length]. rewrite app_length. cbn [length]. intros k [<-|[<-|[]]]; lia. }
  { rewrite EO, EL. cbn [legs_at map nth]. rewrite xn_last. replace (length (map V (pairs (L - 1))) + 1) with (S (length (map V (pairs (L - 1))))) by lia. cbn [nth]. rewrite nth_middle. reflexivity. }
  { rewrite ER, <- map_app, fbonds_V. rewrite xn_last. apply NoDup_app_intro; [|apply NoDup_pairs|].
    - repeat (constructor; [cbn [In]; unfold x, p, q; lia|]). constructor.
    - intros l X1 X2. apply In_pairs in X2. destruct X2 as (k & Hk & X2). memb_tac; unfold x, p, q in *; lia. }
  { rewrite fbonds_V. intros l Hl. apply Hn; [lia|exact Hl]. } { rewrite fbonds_V. apply s_nets_incl. lia. }
  { intros l Hl. rewrite inner_n in Hl by lia. destruct Hl. } { intros l Hl. apply (s_inner_step (L - 1) l); [lia|exact Hl]. }
  rewrite E7. cbn [bind]. rewrite ER in E8. change (rest (map V [x (L - 1); xn (L - 1); p (L - 1); q (L - 1)]) [0;1]) with [V (p (L - 1)); V (q (L - 1))] in E8.
  assert (EF : [V (p (L - 1)); V (q (L - 1))] ++ map V (pairs (L - 1)) = map V (pairs L)) by (replace L with (S (L - 1)) at 4 by lia; rewrite pairs_S; reflexivity).
  rewrite EF in E8. rewrite <- s_nets_S in E8. replace (S (L - 1)) with L in E8 by lia.
  assert (HE8 := isc_fits z o add mul D _ _ _ E8). destruct HE8 as [_ Hd8].
  assert (HA : tdims R3 = repeat ad (2 * L)).
  { rewrite Hd8. rewrite <- len_pairs. assert (X : forall l, In l (pairs L) -> D l = ad) by (intros l Hl; apply In_pairs in Hl; destruct Hl as (k & Hk & [->| ->]); apply HD; lia).
    clear -X. induction (pairs L) as [|l r IH]; [reflexivity|]. cbn [map length repeat ldim]. rewrite X by now left. f_equal. apply IH. intros l' Hl'. apply X. now right. }
  destruct (isc_permute z o add mul SR D _ _ R3 (map (fun k => 2 * k) (seq 0 L) ++ map (fun k => 2 * k + 1) (seq 0 L)) E8) as (R4 & E9 & E10).
  { rewrite map_length, len_pairs. apply perm_of_sets.
    - apply NoDup_app_intro; [apply FinFun.Injective_map_NoDup; [intros j k; lia|apply seq_NoDup]|apply FinFun.Injective_map_NoDup; [intros j k; lia|apply seq_NoDup]|]. intros l X1 X2. memb_tac. lia.
    - apply seq_NoDup.
    - intros k. rewrite in_app_iff, !in_map_iff, in_seq. split.
      + intros [(j & <- & Hj)|(j & <- & Hj)]; apply in_seq in Hj; lia.
      + intros Hk. destruct (Nat.Even_or_Odd k) as [[j ->]|[j ->]]; [left|right]; exists j; (split; [reflexivity|apply in_seq; lia]). }
  rewrite E9. cbn [bind]. exists R4.
  assert (EP : legs_at (map V (pairs L)) (map (fun k => 2 * k) (seq 0 L) ++ map (fun k => 2 * k + 1) (seq 0 L)) = map V (rev (map p (seq 0 L)) ++ rev (map q (seq 0 L)))).
  { rewrite legs_at_app, map_app. unfold pairs. assert (EV := evens p q (rev (seq 0 L))). assert (EV' := odds p q (rev (seq 0 L))). rewrite rev_length, seq_length in EV, EV'. rewrite EV, EV', !map_rev. reflexivity. }
  rewrite EP in E10. split.
  - assert (PR : forall m, prod_dims (repeat ad m) = ad ^ m) by (induction m as [|m IHm]; [reflexivity|cbn [repeat Nat.pow]; rewrite <- IHm; reflexivity]).
    assert (EFI : firstn L (tdims R3) = repeat ad L).
    { rewrite HA. replace (2 * L) with (L + L) by lia. rewrite repeat_app, firstn_app, repeat_length, Nat.sub_diag, firstn_O, app_nil_r. apply firstn_all2. rewrite repeat_length. lia. }
    assert (ESK : skipn L (tdims R3) = repeat ad L).
    { rewrite HA. replace (2 * L) with (L + L) by lia. rewrite repeat_app, skipn_app, repeat_length, Nat.sub_diag, skipn_O, skipn_all2 by (rewrite repeat_length; lia). reflexivity. }
    rewrite EFI, ESK, PR. unfold view, treshape.
    assert (HW := isc_fits z o add mul D _ _ _ E10). destruct HW as [W4 Hd4].
    assert (H4 : prod_dims (tdims R4) = ad ^ L * ad ^ L).
    { rewrite Hd4, map_app, map_app, prod_app. assert (X : forall f, (forall k, k < L -> D (f k) = ad) -> prod_dims (map (ldim D) (map V (rev (map f (seq 0 L))))) = ad ^ L).
      { intros f Hf. rewrite <- PR. f_equal. rewrite map_map. cbn [ldim]. rewrite <- map_rev, map_map. rewrite <- (seq_length L 0) at 2. rewrite <- (rev_length (seq 0 L)). assert (Y : forall k, In k (rev (seq 0 L)) -> k < L) by (intros k Hk; apply in_rev, in_seq in Hk; lia).
        clear -Y Hf. induction (rev (seq 0 L)) as [|k r IH]; [reflexivity|]. cbn [map length repeat]. rewrite Hf by (apply Y; now left). f_equal. apply IH. intros j Hj. apply Y. now right. }
      rewrite !X; [reflexivity|intros k Hk; now apply HD|intros k Hk; now apply HD]. }
    unfold twf in W4. rewrite W4, H4. cbn [prod_dims fold_right]. rewrite Nat.mul_1_r, Nat.eqb_refl. reflexivity.
  - revert E10. apply (isc_perm z o add mul SR D). unfold nets. apply Permutation_flat_map. symmetry. apply Permutation_rev. Qed.
End Sigma.
End Chain.
