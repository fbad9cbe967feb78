(** Partial traces of a network, and leaves whose entries do not change under a permutation of the
    indices. *)
From Verif Require Import Base BaseLemmas Tensor TensorLemmas Net NetSpec NetProofs NetProofs2 NetProofs3 Corners CornersSpec CornersProofs NetSym.
From Coq Require Import Ring.
Open Scope list_scope.
Open Scope nat_scope.
Open Scope res_scope.

(** bond q becomes bond p *)
Definition glue1 (p q k : nat) : nat := if k =? q then p else k.
(** trace over the last two indices, which are bonds p and q *)
Definition sym_trace (ts : list leg) (p q : nat) (bnd : list nat) (fac : list (nat * list leg)) : option sym :=
  if negb (p =? q) && negb (memb p (flat_map bonds ts ++ bnd)) && negb (memb q (flat_map bonds ts ++ bnd))
  then Some (mkS ts (p :: bnd) (map (fun f => (fst f, map (ren (glue1 p q)) (snd f))) fac)) else None.

Section T.
Context {K : Type} (z o : K) (add mul : K -> K -> K).
Hypothesis SR : semi_ring_theory z o add mul eq.
Add Ring Kring : SR.
Variable D : nat -> nat.
Variable env : nat -> tensor K.
Notation rep := (rep z o add mul D env).
Notation ldim := (ldim D).
Notation lval := (lval D).
Notation entry := (entry z).

Lemma rep_leaf_alt k ts ts' M : env k = M -> twf M -> tdims M = map ldim ts' -> incl (flat_map bonds ts) (flat_map bonds ts') ->
  (forall s, (forall l, In l (flat_map bonds ts') -> s l < D l) -> entry M (map (lval s) ts') = entry M (map (lval s) ts)) ->
  rep (mkS ts' [] [(k, ts)]) M.
Proof. intros E W Hd HI HE. destruct (rep_leaf z o add mul SR D env k ts' M E W Hd) as (_ & _ & _ & HV).
  split; [exact W|]. split; [exact Hd|]. split.
  { unfold fvars, ovars. cbn. rewrite !app_nil_r. exact HI. }
  intros s Hs. cbn [s_out s_bnd s_fac] in *. rewrite (HV s Hs). f_equal. unfold fprod. cbn [s_fac s_bnd map fst snd NetSpec.sum_over NetSpec.prod_list fold_right]. rewrite E.
  now rewrite HE. Qed.

Lemma glue_sum p q (G : (nat -> nat) -> K) S : dep S G -> forall ls s, ~ In p ls -> ~ In q ls ->
  sum_over D z add ls (fun s => G (fun k => s (glue1 p q k))) s = sum_over D z add ls G (fun k => s (glue1 p q k)).
Proof. intros HG. induction ls as [|l ls IH]; intros s Np Nq; cbn [sum_over]; [reflexivity|].
  apply sl_ext. intros i _. rewrite IH; [|intros X; apply Np; now right|intros X; apply Nq; now right].
  apply (so_dep z add D ls S); [exact HG|]. intros k _ _. unfold upd, glue1.
  assert (p <> l) by (intros ->; apply Np; now left). assert (q <> l) by (intros ->; apply Nq; now left).
  destruct (Nat.eqb_spec k q) as [->|Hq].
  - destruct (Nat.eqb_spec p l); [congruence|]. destruct (Nat.eqb_spec q l); [congruence|reflexivity].
  - reflexivity. Qed.

(** the value of a trace over the last two indices *)
Lemma trace_value ts p q bnd fac M : rep (mkS (ts ++ [V p; V q]) bnd fac) M -> D p = D q -> p <> q ->
  ~ In p (flat_map bonds ts ++ bnd) -> ~ In q (flat_map bonds ts ++ bnd) ->
  forall s, (forall l, In l (flat_map bonds ts) -> s l < D l) ->
  sum_list z add (map (fun j => entry M (map (lval s) ts ++ [j; j])) (seq 0 (D p)))
  = sum_over D z add (p :: bnd) (fprod z o mul D env (map (fun f => (fst f, map (ren (glue1 p q)) (snd f))) fac)) s.
Proof. intros (W & Hd & HI & HV) HD Npq Np Nq s Hs. cbn [sum_over]. apply sl_ext. intros j Hj. apply in_seq in Hj.
  set (s' := upd (upd s p j) q j).
  rewrite in_app_iff in Np, Nq.
  assert (Es : map (lval s) ts ++ [j; j] = map (lval s') (ts ++ [V p; V q])).
  { rewrite map_app. f_equal.
    - apply map_ext_in. intros t Ht. apply lval_ext. intros k Hk. unfold s'.
      assert (X : In k (flat_map bonds ts)) by (apply in_flat_map; eauto).
      rewrite !upd_other; [reflexivity| |]; intros ->; [apply Np|apply Nq]; now left.
    - cbn. unfold s', upd. rewrite Nat.eqb_refl. destruct (Nat.eqb_spec p q); [congruence|]. now rewrite Nat.eqb_refl. }
  unfold NetSpec.entry. rewrite Es. cbn [s_out s_bnd s_fac] in HV. rewrite HV.
  2:{ intros l Hl. unfold ovars in Hl. cbn [s_out] in Hl. rewrite flat_map_app in Hl. cbn in Hl. rewrite in_app_iff in Hl. unfold s', upd.
      destruct (Nat.eqb_spec l q) as [->|H1]; [lia|]. destruct (Nat.eqb_spec l p) as [->|H2]; [lia|].
      apply Hs. destruct Hl as [Hl|[Hl|[Hl|[]]]]; [exact Hl|congruence|congruence]. }
  assert (HG := fprod_dep z o mul D env fac).
  transitivity (sum_over D z add bnd (fprod z o mul D env fac) (fun k => upd s p j (glue1 p q k))).
  - apply (so_dep z add D bnd (fvars fac) _ HG). intros k _ _. unfold s', upd, glue1.
    destruct (Nat.eqb_spec k q) as [->|H1]; [now rewrite Nat.eqb_refl|reflexivity].
  - rewrite <- (glue_sum p q _ _ HG); [|tauto|tauto]. apply so_ext. intros s1 _. unfold fprod. rewrite map_map. f_equal.
    apply map_ext. intros f. cbn [fst snd]. f_equal. rewrite map_map. apply map_ext. intros t. symmetry.
    apply lval_b. intros l. unfold glue1. destruct (Nat.eqb_spec l q) as [->|]; [exact HD|reflexivity]. Qed.

Lemma trace_incl ts p q bnd fac : incl (fvars fac) (flat_map bonds (ts ++ [V p; V q]) ++ bnd) ->
  incl (fvars (map (fun f => (fst f, map (ren (glue1 p q)) (snd f))) fac)) (flat_map bonds ts ++ p :: bnd).
Proof. intros HI k Hk. rewrite fvars_ren in Hk. apply in_map_iff in Hk. destruct Hk as (l & <- & Hl). apply HI in Hl.
  rewrite flat_map_app in Hl. cbn in Hl. rewrite !in_app_iff in Hl. rewrite in_app_iff. cbn. unfold glue1.
  destruct (Nat.eqb_spec l q) as [->|H]; [right; now left|].
  destruct Hl as [[Hl|[->|[->|[]]]]|Hl]; [now left|right; now left|congruence|right; now right]. Qed.

Lemma sym_trace_inv ts p q bnd fac S : sym_trace ts p q bnd fac = Some S -> p <> q /\
  ~ In p (flat_map bonds ts ++ bnd) /\ ~ In q (flat_map bonds ts ++ bnd) /\
  S = mkS ts (p :: bnd) (map (fun f => (fst f, map (ren (glue1 p q)) (snd f))) fac).
Proof. unfold sym_trace. destruct (_ && _) eqn:C; [|discriminate]. intros H. injection H as <-.
  rewrite !andb_true_iff, !negb_true_iff in C. destruct C as [[C1 C2] C3]. split; [now apply Nat.eqb_neq|].
  split; [now apply memb_false|]. split; [now apply memb_false|reflexivity]. Qed.
Ltac trace_tac ts p q bnd fac M HR HS HD :=
  destruct (sym_trace_inv _ _ _ _ _ _ HS) as (Npq & Np & Nq & ->); clear HS;
  assert (HV := trace_value ts p q bnd fac M HR HD Npq Np Nq);
  destruct HR as (W & Hd & HI & _); cbn in Hd; unfold einsum, label_dims, summed; cbn [flat_map map snd fst combine app forallb]; rewrite !Hd;
  cbn [combine length]; cbn; rewrite ?HD, !Nat.eqb_refl; cbn; eexists; split; [reflexivity|];
  split; [apply twf_tbuild|]; split; [reflexivity|]; split; [exact (trace_incl ts p q bnd fac HI)|];
  intros s Hs; unfold ovars in Hs; cbn [s_out s_bnd s_fac] in *; rewrite <- (HV s Hs);
  rewrite tget_tbuild; [|exact (legs_range D s ts Hs)];
  f_equal; unfold nsum, NetSpec.sum_list; rewrite HD; cbn [map app]; unfold nprod;
  f_equal; clear -SR; generalize (seq 0 (D q)) as l; induction l as [|j l IH]; cbn; [reflexivity|]; rewrite <- IH; f_equal; cbn; unfold tel, NetSpec.entry; ring.
Lemma rep_trace2 t0 t1 p q S bnd fac M : rep (mkS [t0; t1; V p; V q] bnd fac) M -> sym_trace [t0; t1] p q bnd fac = Some S -> D p = D q ->
  exists M', einsum z o add mul [(M, [0;1;2;2])] [0;1] = Ok M' /\ rep S M'.
Proof. intros HR HS HD. trace_tac [t0; t1] p q bnd fac M HR HS HD. Qed.
Lemma rep_trace4 t0 t1 t2 t3 p q S bnd fac M : rep (mkS [t0; t1; t2; t3; V p; V q] bnd fac) M ->
  sym_trace [t0; t1; t2; t3] p q bnd fac = Some S -> D p = D q ->
  exists M', einsum z o add mul [(M, [0;1;2;3;4;4])] [0;1;2;3] = Ok M' /\ rep S M'.
Proof. intros HR HS HD. trace_tac [t0; t1; t2; t3] p q bnd fac M HR HS HD. Qed.
End T.

(** a contraction is determined by the network *)
Lemma contraction_unique {K : Type} (z o : K) (add mul : K -> K -> K) (D : nat -> nat) net out M M' : NoDup (flat_map bonds out) ->
  is_contraction D z o add mul net out M -> is_contraction D z o add mul net out M' -> M = M'.
Proof. intros N (W & Ed & H) (W' & Ed' & H'). apply tensor_ext; [exact W|exact W'|congruence|].
  intros ix R. rewrite Ed in R. destruct (legs_surj D out N ix (fun _ => 0) R) as (s & _ & Hs & <-).
  rewrite (H s Hs), (H' s Hs). reflexivity. Qed.
