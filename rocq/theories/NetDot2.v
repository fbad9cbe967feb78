(** permute, view and tensordot of contractions with any number of legs *)
From Verif Require Import Base BaseLemmas Tensor TensorLemmas Net NetSpec NetProofs NetProofs2 NetProofs3 CornersSpec CorrProofs NetDot.
From Coq Require Import Ring Permutation.
Open Scope list_scope.
Open Scope nat_scope.

(** ** the remaining legs *)
Fixpoint drop_at (k : nat) (l : list leg) (i : list nat) : list leg :=
  match l with [] => [] | a :: l' => if memb k i then drop_at (S k) l' i else a :: drop_at (S k) l' i end.
Lemma rest_drop_gen l i : forall k, map (fun j => nth (j - k) l (V 0)) (filter (fun j => negb (memb j i)) (seq k (length l))) = drop_at k l i.
Proof. induction l as [|a l IH]; intros k; [reflexivity|]. cbn [length seq filter drop_at].
  assert (E : map (fun j => nth (j - k) (a :: l) (V 0)) (filter (fun j => negb (memb j i)) (seq (S k) (length l))) = drop_at (S k) l i).
  { rewrite <- IH. apply map_ext_in. intros j Hj. apply filter_In in Hj. destruct Hj as [Hj _]. apply in_seq in Hj. replace (j - k) with (S (j - S k)) by lia. reflexivity. }
  destruct (memb k i); cbn [negb]; [exact E|]. cbn [map]. rewrite Nat.sub_diag, E. reflexivity. Qed.
Lemma rest_drop l i : rest l i = drop_at 0 l i.
Proof. unfold rest, legs_at, free. rewrite <- rest_drop_gen. apply map_ext. intros j. now rewrite Nat.sub_0_r. Qed.
Lemma drop_app k l1 l2 i : drop_at k (l1 ++ l2) i = drop_at k l1 i ++ drop_at (k + length l1) l2 i.
Proof. revert k. induction l1 as [|a l1 IH]; intros k; cbn [app drop_at length]; [now rewrite Nat.add_0_r|]. rewrite IH, Nat.add_succ_r. destruct (memb k i); reflexivity. Qed.
Lemma drop_none k l i : (forall j, In j i -> j < k \/ k + length l <= j) -> drop_at k l i = l.
Proof. revert k. induction l as [|a l IH]; intros k H; [reflexivity|]. cbn [drop_at]. cbn [length] in H.
  assert (E : memb k i = false) by (apply memb_false; intros X; specialize (H k X); lia). rewrite E. f_equal. apply IH. intros j Hj. specialize (H j Hj). lia. Qed.
Lemma rest_0 a l : rest (a :: l) [0] = l.
Proof. rewrite rest_drop. cbn [drop_at memb existsb Nat.eqb orb]. apply drop_none. intros j [<-|[]]. lia. Qed.
Lemma rest_mid a l1 b l2 : rest (a :: l1 ++ b :: l2) [0; length l1 + 1] = l1 ++ l2.
Proof. rewrite rest_drop. cbn [drop_at]. change (memb 0 [0; length l1 + 1]) with true. cbn iota. rewrite drop_app, drop_none by (intros j [<-|[<-|[]]]; lia). f_equal. cbn [drop_at].
  assert (E : memb (1 + length l1) [0; length l1 + 1] = true) by (apply memb_spec; right; left; lia). rewrite E. apply drop_none. intros j [<-|[<-|[]]]; lia. Qed.
Lemma rest_end a l1 b c : rest (a :: l1 ++ [b; c]) [0; length l1 + 1; length l1 + 2] = l1.
Proof. rewrite rest_drop. cbn [drop_at]. change (memb 0 [0; length l1 + 1; length l1 + 2]) with true. cbn iota. rewrite drop_app, drop_none by (intros j [<-|[<-|[<-|[]]]]; lia). cbn [drop_at].
  assert (E : memb (1 + length l1) [0; length l1 + 1; length l1 + 2] = true) by (apply memb_spec; right; left; lia). rewrite E.
  assert (E' : memb (S (1 + length l1)) [0; length l1 + 1; length l1 + 2] = true) by (apply memb_spec; right; right; left; lia). rewrite E'. apply app_nil_r. Qed.
Lemma rest_ends a l1 b : rest (a :: l1 ++ [b]) [0; length l1 + 1] = l1.
Proof. rewrite rest_mid. apply app_nil_r. Qed.
Lemma legs_at_app l i j : legs_at l (i ++ j) = legs_at l i ++ legs_at l j.
Proof. apply map_app. Qed.
Lemma legs_at_shift l1 l2 n k : length l1 = n -> k <= length l2 -> legs_at (l1 ++ l2) (seq n k) = firstn k l2.
Proof. intros <- Hk. apply (nth_ext _ _ (V 0) (V 0)); [unfold legs_at; rewrite map_length, seq_length, firstn_length; lia|]. intros j Hj. unfold legs_at in Hj. rewrite map_length, seq_length in Hj.
  rewrite nth_legs by (now rewrite seq_length). rewrite seq_nth by exact Hj. rewrite app_nth2 by lia. replace (length l1 + j - length l1) with j by lia.
  rewrite <- (firstn_skipn k l2) at 1. rewrite app_nth1; [reflexivity|]. rewrite firstn_length. lia. Qed.
Lemma legs_at_rev l : legs_at l (rev (seq 0 (length l))) = rev l.
Proof. unfold legs_at. rewrite map_rev. f_equal. apply legs_at_all. Qed.
Lemma fbonds_V l : flat_map bonds (map V l) = l.
Proof. induction l as [|a l IH]; [reflexivity|]. cbn. now rewrite IH. Qed.

Section Dot.
Context {K : Type} (z o : K) (add mul : K -> K -> K).
Hypothesis SR : semi_ring_theory z o add mul eq.
Add Ring Kring : SR.
Variable D : nat -> nat.
Notation isc := (is_contraction D z o add mul).
Notation network := (@network K).

Lemma inner_same (N : network) out out' : (forall l, In l (flat_map bonds out) <-> In l (flat_map bonds out')) -> inner N out = inner N out'.
Proof. intros H. unfold inner. apply filter_ext. intros l. specialize (H l). destruct (in_dec _ _ _), (in_dec _ _ _); tauto. Qed.
Lemma isc_fits N out M : isc N out M -> twf M /\ tdims M = map (ldim D) out.
Proof. intros (W & H & _). now split. Qed.
Lemma isc_view N out M out' : isc N out M -> flat_map bonds out = flat_map bonds out' ->
  exists M', view M (map (ldim D) out') = Ok M' /\ tdata M' = tdata M /\ isc N out' M'.
Proof. intros (W & Hd & HV) E. assert (HL : length (tdata M) = prod_dims (map (ldim D) out')) by (rewrite W, Hd, !dims_bonds, E; reflexivity).
  exists (mkT (map (ldim D) out') (tdata M)). split; [unfold view, treshape; now rewrite HL, Nat.eqb_refl|]. split; [reflexivity|].
  split; [exact HL|]. split; [reflexivity|]. intros s Hs. rewrite (inner_same N out' out) by (now rewrite E). rewrite <- HV by (now rewrite E).
  rewrite !tget_flat; [|exact W| |exact HL|]; cbn [tdims tdata].
  - now rewrite Hd, !vals_bonds, E.
  - rewrite Hd. apply legs_range. now rewrite E.
  - apply legs_range, Hs. Qed.
Lemma isc_permute N out M p : isc N out M -> Permutation p (seq 0 (length out)) ->
  exists M', permute z M p = Ok M' /\ isc N (legs_at out p) M'.
Proof. intros HM HP. assert (HF := isc_fits _ _ _ HM). destruct HF as [W Hd]. set (env := fun _ : nat => M).
  destruct (rep_perm z o add mul D env (mkS out [] [(0, out)]) p (mkS (legs_at out p) [] [(0, out)]) M (rep_leaf z o add mul SR D env 0 out M eq_refl W Hd)) as (M' & E & W' & Hd' & _ & HV').
  { unfold sym_perm. cbn [s_out s_bnd s_fac]. now rewrite (proj2 (is_permb_spec _ _) HP). }
  exists M'. split; [exact E|]. split; [exact W'|]. split; [exact Hd'|]. intros s Hs. cbn [s_out s_bnd s_fac ovars] in HV'. rewrite HV' by exact Hs. cbn [sum_over]. unfold fprod, env. cbn [map fst snd prod_list fold_right].
  assert (HB : forall l, In l (flat_map bonds out) <-> In l (flat_map bonds (legs_at out p))).
  { intros l. assert (P : Permutation (legs_at out p) out) by (rewrite <- (legs_at_all out) at 2; now apply Permutation_map). split; apply Permutation_in, fbonds_perm; [symmetry|]; exact P. }
  unfold entry. destruct HM as (_ & _ & HV). rewrite HV by (intros l Hl; apply Hs, HB, Hl). rewrite (inner_same N _ _ HB). f_equal. ring. Qed.
Lemma isc_join N1 ot T N2 outs E ia ib : isc N1 ot T -> isc N2 outs E -> NoDup ia -> NoDup ib -> length ia = length ib ->
  (forall k, In k ia -> k < length ot) -> (forall k, In k ib -> k < length outs) -> legs_at ot ia = legs_at outs ib ->
  NoDup (flat_map bonds (ot ++ rest outs ib)) ->
  incl (flat_map bonds ot) (nvars N1) -> incl (flat_map bonds outs) (nvars N2) ->
  (forall l, In l (inner N1 ot) -> ~ In l (nvars N2)) -> (forall l, In l (inner N2 outs) -> ~ In l (nvars N1)) ->
  exists R, tensordot z o add mul T E ia ib = Ok R /\ isc (N1 ++ N2) (rest ot ia ++ rest outs ib) R.
Proof. intros H1 H2 Nia Nib HL Ria Rib HS HD I1 I2 X1 X2. destruct (isc_fits _ _ _ H1) as [W1 D1]. destruct (isc_fits _ _ _ H2) as [W2 D2].
  destruct (isc_dot z o add mul SR D ot outs ia ib Nia Nib HL Ria Rib HS HD T E W1 D1 W2 D2) as (R & ER & HR). exists R. split; [exact ER|].
  assert (sub : forall l i l', In l' (flat_map bonds (rest l i)) -> In l' (flat_map bonds l)).
  { intros l i l'. unfold rest, legs_at. rewrite !in_flat_map. intros (t & Ht & Hl). exists t. split; [|exact Hl]. apply in_map_iff in Ht. destruct Ht as (k & <- & Hk). apply In_free in Hk. now apply nth_In. }
  apply (isc_perm z o add mul SR D _ _ _ _ (Permutation_app_comm N2 N1)).
  assert (outer : forall l, In l (flat_map bonds (rest ot ia ++ rest outs ib)) -> In l (flat_map bonds ot) \/ In l (flat_map bonds outs)).
  { intros l. rewrite flat_map_app, in_app_iff. intros [H|H]; [left|right]; exact (sub _ _ _ H). }
  assert (HR1 : isc ((E, outs) :: N1) (rest ot ia ++ rest outs ib) R).
  { apply (isc_perm z o add mul SR D (N1 ++ [(E, outs)])); [symmetry; apply Permutation_cons_append|].
    apply (isc_sub z o add mul SR D N1 [(E, outs)] ot _ T R H1 HR I1). intros l Hl. split.
    - unfold nvars. cbn. rewrite app_nil_r. intros X. exact (X1 l Hl (I2 l X)).
    - intros X. apply outer in X. destruct X as [X|X]; [apply In_inner in Hl; tauto|exact (X1 l Hl (I2 l X))]. }
  apply (isc_sub z o add mul SR D N2 N1 outs _ E R H2 HR1 I2). intros l Hl. split; [exact (X2 l Hl)|].
  intros X. apply outer in X. destruct X as [X|X]; [exact (X2 l Hl (I1 l X))|apply In_inner in Hl; tauto]. Qed.
End Dot.
