(** tensordot of tensors with any number of legs *)
From Verif Require Import Base BaseLemmas Tensor TensorLemmas Net NetSpec NetProofs NetProofs2 NetProofs3 CornersSpec CorrProofs.
From Coq Require Import Ring Permutation.
Open Scope list_scope.
Open Scope nat_scope.

Definition free (n : nat) (i : list nat) : list nat := filter (fun k => negb (memb k i)) (seq 0 n).
(** the legs at the places i *)
Definition legs_at (l : list leg) (i : list nat) : list leg := map (fun k => nth k l (V 0)) i.
Definition rest (l : list leg) (i : list nat) : list leg := legs_at l (free (length l) i).

Lemma In_free n i k : In k (free n i) <-> k < n /\ ~ In k i.
Proof. unfold free. rewrite filter_In, in_seq, negb_true_iff, memb_false. intuition lia. Qed.
Lemma NoDup_free n i : NoDup (free n i).
Proof. apply NoDup_filter, seq_NoDup. Qed.
Lemma legs_at_all l : legs_at l (seq 0 (length l)) = l.
Proof. unfold legs_at. apply (nth_ext _ _ (V 0) (V 0)); [now rewrite map_length, seq_length|]. intros n Hn. rewrite map_length, seq_length in Hn.
  rewrite (nth_indep _ (V 0) (nth 0 l (V 0))) by (now rewrite map_length, seq_length).
  rewrite (map_nth (fun k => nth k l (V 0)) (seq 0 (length l)) 0). now rewrite seq_nth. Qed.
Lemma nth_legs l i j : j < length i -> nth j (legs_at l i) (V 0) = nth (nth j i 0) l (V 0).
Proof. intros Hj. unfold legs_at. rewrite (nth_indep _ (V 0) (nth 0 l (V 0))) by (now rewrite map_length). now rewrite (map_nth (fun k => nth k l (V 0)) i 0). Qed.
Lemma rest_perm l i : NoDup i -> (forall k, In k i -> k < length l) -> Permutation (rest l i ++ legs_at l i) l.
Proof. intros N H. unfold rest. transitivity (legs_at l (free (length l) i ++ i)); [unfold legs_at; now rewrite map_app|].
  transitivity (legs_at l (seq 0 (length l))); [|now rewrite legs_at_all].
  apply Permutation_map. apply perm_of_sets.
  - apply NoDup_app_intro; [apply NoDup_free|exact N|]. intros k Hk Hk'. apply In_free in Hk. tauto.
  - apply seq_NoDup.
  - intros k. rewrite in_app_iff, In_free, in_seq. destruct (in_dec Nat.eq_dec k i) as [Hk|Hk]; [specialize (H k Hk)|]; intuition lia. Qed.
Lemma fbonds_perm l1 l2 : Permutation l1 l2 -> Permutation (flat_map bonds l1) (flat_map bonds l2).
Proof. intros P. now apply Permutation_flat_map. Qed.
Lemma NoDup_perm_ {A} (l1 l2 : list A) : Permutation l1 l2 -> NoDup l2 -> NoDup l1.
Proof. intros P. apply Permutation_NoDup. now symmetry. Qed.

Section Dot.
Context {K : Type} (z o : K) (add mul : K -> K -> K).
Hypothesis SR : semi_ring_theory z o add mul eq.
Variable D : nat -> nat.
Notation isc := (is_contraction D z o add mul).

Section Labels.
Variables (oa ob : list leg) (ia ib : list nat).
Hypothesis Nia : NoDup ia.
Hypothesis Nib : NoDup ib.
Hypothesis Hlen : length ia = length ib.
Hypothesis Ria : forall k, In k ia -> k < length oa.
Hypothesis Rib : forall k, In k ib -> k < length ob.
Hypothesis Hsame : legs_at oa ia = legs_at ob ib.
Let ra := length oa.
Let rb := length ob.
Let SA := mkS oa [] [(0, oa)].
Let SB := mkS ob [] [(1, ob)].
Let lbl := dot_labels ra ia ib rb.
Let out := dot_out ra ia ib rb.
Let mu := mu_of [seq 0 ra; lbl] [SA; SB].
Let leg_of (l : nat) : leg := if l <? ra then nth l oa (V 0) else nth (l - ra) ob (V 0).

Lemma lbl_length : length lbl = rb.
Proof. unfold lbl, dot_labels. now rewrite map_length, seq_length. Qed.
Lemma lbl_nth k : k < rb -> nth k lbl 0 = if memb k ib then nth (pos k ib) ia 0 else ra + k.
Proof. intros Hk. unfold lbl, dot_labels. rewrite (nth_indep _ 0 ((fun k => if memb k ib then nth (pos k ib) ia 0 else ra + k) 0)) by (now rewrite map_length, seq_length).
  rewrite (map_nth (fun k => if memb k ib then nth (pos k ib) ia 0 else ra + k) (seq 0 rb) 0). now rewrite seq_nth. Qed.
Lemma same_nth j : j < length ia -> nth (nth j ia 0) oa (V 0) = nth (nth j ib 0) ob (V 0).
Proof. intros Hj. rewrite <- !nth_legs by lia. now rewrite Hsame. Qed.
Lemma leg_of_b k : k < rb -> leg_of (nth k lbl 0) = nth k ob (V 0).
Proof. intros Hk. rewrite lbl_nth by exact Hk. unfold leg_of. destruct (memb k ib) eqn:E.
  - apply memb_spec in E. destruct (nth_pos ib k E) as [E1 E2]. rewrite <- Hlen in E2.
    assert (H : nth (pos k ib) ia 0 < ra) by (apply Ria, nth_In; exact E2). apply Nat.ltb_lt in H. rewrite H. rewrite same_nth by exact E2. now rewrite E1.
  - destruct (Nat.ltb_spec (ra + k) ra); [lia|]. f_equal. lia. Qed.
Lemma mu_In l t : In (l, t) mu -> t = leg_of l.
Proof. unfold mu, mu_of. cbn [combine flat_map fst snd s_out]. rewrite app_nil_r, in_app_iff. intros [H|H].
  - apply (In_nth _ _ (0, V 0)) in H. destruct H as (k & Hk & E). rewrite combine_length, seq_length in Hk. unfold SA, s_out in E. rewrite combine_nth in E by (rewrite seq_length; reflexivity).
    rewrite seq_nth in E by (unfold ra in *; lia). injection E as <- <-. unfold leg_of. cbn [Nat.add]. destruct (Nat.ltb_spec k ra) as [H|H]; [reflexivity|unfold ra in *; lia].
  - apply (In_nth _ _ (0, V 0)) in H. destruct H as (k & Hk & E). rewrite combine_length, lbl_length in Hk. unfold SB, s_out in E. rewrite combine_nth in E by (rewrite lbl_length; reflexivity).
    injection E as <- <-. symmetry. apply leg_of_b. lia. Qed.
Lemma mu_key l : (l < ra \/ In l lbl) -> In l (map fst mu).
Proof. intros H. unfold mu, mu_of. cbn [combine flat_map fst snd s_out]. rewrite app_nil_r, map_app, in_app_iff.
  assert (X : forall (l1 : list nat) (l2 : list leg), length l1 = length l2 -> map fst (combine l1 l2) = l1).
  { induction l1 as [|a l1 IH]; intros [|b l2] E; cbn in *; try discriminate; [reflexivity|]. f_equal. apply IH. lia. }
  destruct H as [H|H]; [left|right]; rewrite X; cbn [s_out SA SB]; rewrite ?seq_length, ?lbl_length; try reflexivity; [apply in_seq; lia|exact H]. Qed.
Lemma mget_ok l : (l < ra \/ In l lbl) -> mget mu l = leg_of l.
Proof. intros H. apply mu_key in H. unfold mget. destruct (dget mu l) as [t|] eqn:E; [now apply mu_In, dget_In|].
  exfalso. apply dget_None in E. apply E. exact H. Qed.
Lemma In_out l : In l out <-> (l < ra /\ ~ In l ia) \/ (exists k, k < rb /\ ~ In k ib /\ l = ra + k).
Proof. unfold out, dot_out. fold (free ra ia) (free rb ib). rewrite in_app_iff, In_free, in_map_iff. split.
  - intros [H|(k & <- & H)]; [now left|]. apply In_free in H. right. exists k. tauto.
  - intros [H|(k & H1 & H2 & ->)]; [now left|right]. exists k. split; [reflexivity|]. apply In_free. tauto. Qed.
Lemma NoDup_out : NoDup out.
Proof. unfold out, dot_out. fold (free ra ia) (free rb ib). apply NoDup_app_intro; [apply NoDup_free|apply FinFun.Injective_map_NoDup; [intros a b; lia|apply NoDup_free]|].
  intros l Hl Hl'. apply In_free in Hl. apply in_map_iff in Hl'. destruct Hl' as (k & <- & _). lia. Qed.
Lemma In_lbl_b k : k < rb -> ~ In k ib -> In (ra + k) lbl.
Proof. intros H1 H2. assert (E := lbl_nth k H1). apply memb_false in H2. rewrite H2 in E. rewrite <- E. apply nth_In. now rewrite lbl_length. Qed.
Lemma In_lbl l : In l lbl -> In l ia \/ exists k, k < rb /\ ~ In k ib /\ l = ra + k.
Proof. intros H. apply (In_nth _ _ 0) in H. destruct H as (k & Hk & <-). rewrite lbl_length in Hk. rewrite lbl_nth by exact Hk. destruct (memb k ib) eqn:E.
  - left. apply nth_In. rewrite Hlen. apply nth_pos. now apply memb_spec.
  - right. exists k. apply memb_false in E. tauto. Qed.
Lemma out_known l : In l out -> l < ra \/ In l lbl.
Proof. rewrite In_out. intros [H|(k & H1 & H2 & ->)]; [left; tauto|right; now apply In_lbl_b]. Qed.
Lemma out_legs : map (mget mu) out = rest oa ia ++ rest ob ib.
Proof. transitivity (map leg_of out); [apply map_ext_in; intros l Hl; now apply mget_ok, out_known|].
  unfold out, dot_out, rest. fold (free ra ia) (free rb ib). rewrite map_app. f_equal.
  - unfold legs_at. apply map_ext_in. intros k Hk. apply In_free in Hk. unfold leg_of. destruct (Nat.ltb_spec k ra); [reflexivity|lia].
  - rewrite map_map. unfold legs_at. apply map_ext_in. intros k Hk. unfold leg_of. destruct (Nat.ltb_spec (ra + k) ra); [lia|]. f_equal. lia. Qed.
Let sm := filter (fun l => negb (memb l out)) (distinct (concat [seq 0 ra; lbl])).
Lemma sm_perm : Permutation sm ia.
Proof. apply perm_of_sets; [apply NoDup_filter, NoDup_distinct|exact Nia|]. intros l. unfold sm. rewrite filter_In, In_distinct, negb_true_iff, memb_false. cbn [concat]. rewrite app_nil_r, in_app_iff, in_seq, In_out.
  split.
  - intros [[H|H] Ho].
    + destruct (in_dec Nat.eq_dec l ia) as [Hi|Hi]; [exact Hi|]. exfalso. apply Ho. left. split; [lia|exact Hi].
    + apply In_lbl in H. destruct H as [H|H]; [exact H|]. exfalso. apply Ho. now right.
  - intros H. specialize (Ria l H). split; [left; unfold ra; lia|]. intros [[_ X]|(k & _ & _ & X)]; [contradiction|unfold ra in *; lia]. Qed.
Lemma sm_legs : map (mget mu) sm = map leg_of sm.
Proof. apply map_ext_in. intros l Hl. apply mget_ok. left. apply (Permutation_in _ sm_perm) in Hl. now apply Ria. Qed.
Lemma sm_bonds : Permutation (map leg_of sm) (legs_at oa ia).
Proof. transitivity (map leg_of ia); [apply Permutation_map, sm_perm|]. assert (E : map leg_of ia = legs_at oa ia); [|now rewrite E].
  unfold legs_at. apply map_ext_in. intros k Hk. unfold leg_of. specialize (Ria k Hk). destruct (Nat.ltb_spec k ra); [reflexivity|unfold ra in *; lia]. Qed.

Hypothesis Hdis : NoDup (flat_map bonds (oa ++ rest ob ib)).
Lemma all_perm : Permutation (map (mget mu) (out ++ sm)) (oa ++ rest ob ib).
Proof. rewrite map_app, out_legs, sm_legs. rewrite <- (rest_perm oa ia Nia Ria) at 2. rewrite sm_bonds. rewrite <- !app_assoc. apply Permutation_app_head. apply Permutation_app_comm. Qed.
Lemma dot_sym : sym_dot SA SB ia ib = Some (mkS (rest oa ia ++ rest ob ib) (flat_map bonds (map (mget mu) sm)) [(0, oa); (1, ob)]).
Proof. unfold sym_dot. cbn [s_out SA SB]. fold ra rb.
  assert (C : (length ia =? length ib) && nodupb ia && nodupb ib && forallb (fun k => k <? ra) ia && forallb (fun k => k <? rb) ib = true).
  { rewrite !andb_true_iff. repeat split; [now apply Nat.eqb_eq|now apply nodupb_spec|now apply nodupb_spec|apply forallb_forall; intros k Hk; now apply Nat.ltb_lt, Ria|apply forallb_forall; intros k Hk; now apply Nat.ltb_lt, Rib]. }
  rewrite C. unfold sym_einsum. fold lbl out mu. change (mu_of [seq 0 ra; lbl] [mkS oa [] [(0, oa)]; mkS ob [] [(1, ob)]]) with mu. fold sm. cbn zeta.
  assert (C2 : (length [seq 0 ra; lbl] =? length [SA; SB]) && forallb (fun p => length (fst p) =? length (s_out (snd p))) (combine [seq 0 ra; lbl] [SA; SB])
     && forallb (fun lt => leg_eqb (snd lt) (mget mu (fst lt))) mu && nodupb out && forallb (fun l => memb l (concat [seq 0 ra; lbl])) out
     && nodupb (flat_map bonds (map (mget mu) (out ++ sm)) ++ flat_map s_bnd [SA; SB]) = true).
  { rewrite !andb_true_iff. repeat split.
    - cbn. rewrite seq_length, lbl_length. unfold ra, rb. now rewrite !Nat.eqb_refl.
    - apply forallb_forall. intros [l t] H. apply leg_eqb_eq. cbn [fst snd]. rewrite (mu_In _ _ H). symmetry. apply mget_ok.
      unfold mu, mu_of in H. cbn [combine flat_map fst snd s_out] in H. rewrite app_nil_r, in_app_iff in H. destruct H as [H|H]; apply in_combine_l in H; [left; apply in_seq in H; lia|now right].
    - apply nodupb_spec, NoDup_out.
    - apply forallb_forall. intros l Hl. apply memb_spec. cbn [concat]. rewrite app_nil_r, in_app_iff, in_seq. destruct (out_known l Hl) as [H|H]; [left; lia|now right].
    - apply nodupb_spec. cbn [flat_map s_bnd SA SB app]. rewrite app_nil_r. apply (NoDup_perm_ _ _ (fbonds_perm _ _ all_perm)). exact Hdis. }
  change (mkS oa [] [(0, oa)]) with SA. change (mkS ob [] [(1, ob)]) with SB. rewrite C2. cbn [flat_map s_bnd s_fac SA SB app]. rewrite app_nil_r. now rewrite out_legs. Qed.
Lemma dot_inner (A B : tensor K) : Permutation (flat_map bonds (map (mget mu) sm)) (inner [(A, oa); (B, ob)] (rest oa ia ++ rest ob ib)).
Proof. assert (N := Hdis). apply (NoDup_perm_ _ _ (fbonds_perm _ _ all_perm)) in N. rewrite map_app, flat_map_app in N. apply NoDup_app_inv in N. destruct N as (_ & N2 & N3).
  apply perm_of_sets; [exact N2|apply NoDup_inner|]. intros k. rewrite In_inner. unfold nvars. cbn [flat_map snd]. rewrite app_nil_r. rewrite out_legs in N3.
  assert (P : forall k, In k (flat_map bonds (map (mget mu) sm)) <-> In k (flat_map bonds (legs_at oa ia))).
  { intros j. rewrite sm_legs. split; apply Permutation_in, fbonds_perm; [|symmetry]; apply sm_bonds. }
  split.
  - intros H. split.
    + apply in_app_iff. left. apply P in H. apply (Permutation_in _ (fbonds_perm _ _ (rest_perm oa ia Nia Ria))). rewrite flat_map_app. apply in_app_iff. now right.
    + intros X. exact (N3 k X H).
  - intros [H1 H2]. apply P. rewrite flat_map_app, in_app_iff in H2. apply in_app_iff in H1. destruct H1 as [H1|H1].
    + apply (Permutation_in _ (fbonds_perm _ _ (Permutation_sym (rest_perm oa ia Nia Ria)))) in H1. rewrite flat_map_app in H1. apply in_app_iff in H1. tauto.
    + apply (Permutation_in _ (fbonds_perm _ _ (Permutation_sym (rest_perm ob ib Nib Rib)))) in H1. rewrite flat_map_app in H1. apply in_app_iff in H1. rewrite Hsame. tauto. Qed.
Lemma isc_dot (A B : tensor K) : twf A -> tdims A = map (ldim D) oa -> twf B -> tdims B = map (ldim D) ob ->
  exists R, tensordot z o add mul A B ia ib = Ok R /\ isc [(A, oa); (B, ob)] (rest oa ia ++ rest ob ib) R.
Proof. intros WA DA WB DB. set (env := fun k => if k =? 0 then A else B).
  destruct (rep_dot z o add mul SR D env A B ia ib SA SB _ (rep_leaf z o add mul SR D env 0 oa A eq_refl WA DA) (rep_leaf z o add mul SR D env 1 ob B eq_refl WB DB) dot_sym) as (R & E & W & Hd & _ & HV).
  exists R. split; [exact E|]. split; [exact W|]. split; [exact Hd|]. intros s Hs. rewrite HV by exact Hs. f_equal. cbn [s_bnd s_fac].
  rewrite (so_perm z o add mul SR D _ _ (fvars [(0, oa); (1, ob)]) _ (dot_inner A B)) by apply fprod_dep. reflexivity. Qed.
End Labels.
End Dot.
