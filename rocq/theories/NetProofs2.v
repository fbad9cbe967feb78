(** Contractions computed step by step: each primitive on tensors that are contractions of known
    networks yields the contraction of the joined network. *)
From Verif Require Import Base BaseLemmas Tensor TensorLemmas Net NetSpec NetProofs.
From Coq Require Import Ring.
Open Scope list_scope.
Open Scope nat_scope.

Lemma memb_spec k l : memb k l = true <-> In k l.
Proof. unfold memb. rewrite existsb_exists. split.
  - intros (x & Hx & E). apply Nat.eqb_eq in E. now subst.
  - intros Hk. exists k. split; [exact Hk|apply Nat.eqb_refl]. Qed.
Lemma memb_false k l : memb k l = false <-> ~ In k l.
Proof. rewrite <- memb_spec. destruct (memb k l); split; congruence. Qed.
Lemma nodupb_spec l : nodupb l = true <-> NoDup l.
Proof. induction l as [|a l IH]; cbn; [split; [constructor|reflexivity]|].
  rewrite andb_true_iff, IH, negb_true_iff, memb_false. split; [intros [A B]; now constructor|intros N; inversion N; auto]. Qed.
Lemma In_distinct k l : In k (distinct l) <-> In k l.
Proof. induction l as [|a l IH]; cbn; [tauto|]. destruct (memb a l) eqn:E; cbn; rewrite IH; [|tauto].
  apply memb_spec in E. split; [auto|intros [<-|X]; auto]. Qed.
Lemma NoDup_distinct l : NoDup (distinct l).
Proof. induction l as [|a l IH]; cbn; [constructor|]. destruct (memb a l) eqn:E; [exact IH|].
  constructor; [|exact IH]. rewrite In_distinct. now apply memb_false. Qed.

Fixpoint leg_eqb (a b : leg) : bool :=
  match a, b with V k, V l => k =? l | F a1 a2, F b1 b2 => leg_eqb a1 b1 && leg_eqb a2 b2 | _, _ => false end.
Lemma leg_eqb_eq a b : leg_eqb a b = true <-> a = b.
Proof. revert b; induction a as [k|a1 I1 a2 I2]; intros [l|b1 b2]; cbn; try (split; congruence).
  - rewrite Nat.eqb_eq. split; congruence.
  - rewrite andb_true_iff, I1, I2. split; [intros [-> ->]; reflexivity|intros E; injection E; auto]. Qed.

(** a network with named tensors *)
Record sym := mkS { s_out : list leg; s_bnd : list nat; s_fac : list (nat * list leg) }.
Definition ovars (s : sym) : list nat := flat_map bonds (s_out s).
Definition fvars (fac : list (nat * list leg)) : list nat := flat_map (fun f => flat_map bonds (snd f)) fac.

Definition mu_of (lbls : list (list nat)) (syms : list sym) : list (nat * leg) :=
  flat_map (fun p => combine (fst p) (s_out (snd p))) (combine lbls syms).
Definition mget (mu : list (nat * leg)) (l : nat) : leg := match dget mu l with Some t => t | None => V 0 end.
Definition sym_einsum (lbls : list (list nat)) (syms : list sym) (out : list nat) : option sym :=
  let mu := mu_of lbls syms in
  let sm := filter (fun l => negb (memb l out)) (distinct (concat lbls)) in
  if (length lbls =? length syms)
     && forallb (fun p => length (fst p) =? length (s_out (snd p))) (combine lbls syms)
     && forallb (fun lt => leg_eqb (snd lt) (mget mu (fst lt))) mu
     && nodupb out && forallb (fun l => memb l (concat lbls)) out
     && nodupb (flat_map bonds (map (mget mu) (out ++ sm)) ++ flat_map s_bnd syms)
  then Some (mkS (map (mget mu) out) (flat_map bonds (map (mget mu) sm) ++ flat_map s_bnd syms) (flat_map s_fac syms))
  else None.
Definition sym_dot (sa sb : sym) (ia ib : list nat) : option sym :=
  let ra := length (s_out sa) in let rb := length (s_out sb) in
  if (length ia =? length ib) && nodupb ia && nodupb ib
     && forallb (fun k => k <? ra) ia && forallb (fun k => k <? rb) ib
  then sym_einsum [seq 0 ra; dot_labels ra ia ib rb] [sa; sb] (dot_out ra ia ib rb)
  else None.

Lemma dget_map_snd {A B C} `{EqDec A} (f : B -> C) (d : list (A * B)) k :
  dget (map (fun p => (fst p, f (snd p))) d) k = option_map f (dget d k).
Proof. induction d as [|[a b] d IH]; cbn; [reflexivity|]. destruct (eq_dec k a); [reflexivity|exact IH]. Qed.
Lemma dget_self (g : nat -> nat) ls k : In k ls -> dget (map (fun l => (l, g l)) ls) k = Some (g k).
Proof. induction ls as [|a ls IH]; cbn; [intros []|]. intros [->|X].
  - destruct (eq_dec k k); congruence.
  - destruct (eq_dec k a) as [->|]; [reflexivity|]. now apply IH. Qed.

Section Rep.
Context {K : Type} (z o : K) (add mul : K -> K -> K).
Hypothesis SR : semi_ring_theory z o add mul eq.
Add Ring Kring : SR.
Variable D : nat -> nat.
Variable env : nat -> tensor K.
Notation sum_list := (sum_list z add).
Notation prod_list := (prod_list o mul).
Notation sum_over := (sum_over D z add).
Notation entry := (entry z).
Notation ldim := (ldim D).
Notation lval := (lval D).

Definition fprod (fac : list (nat * list leg)) (s : nat -> nat) : K :=
  prod_list (map (fun f => entry (env (fst f)) (map (lval s) (snd f))) fac).
Lemma fprod_dep fac : dep (fvars fac) (fprod fac).
Proof. intros s s' E. unfold fprod. f_equal. apply map_ext_in. intros f Hf. f_equal. apply map_ext_in.
  intros t Ht. apply lval_ext. intros k Hk. apply E. unfold fvars. apply in_flat_map. exists f. split; [exact Hf|].
  apply in_flat_map. exists t. split; assumption. Qed.

Definition rep (S : sym) (M : tensor K) : Prop :=
  twf M /\ tdims M = map ldim (s_out S) /\ incl (fvars (s_fac S)) (ovars S ++ s_bnd S) /\
  forall s, (forall l, In l (ovars S) -> s l < D l) ->
    tget M (map (lval s) (s_out S)) = Some (sum_over (s_bnd S) (fprod (s_fac S)) s).

Lemma rep_leaf k ts M : env k = M -> twf M -> tdims M = map ldim ts -> rep (mkS ts [] [(k, ts)]) M.
Proof. intros E W Hd. split; [exact W|]. split; [exact Hd|]. split.
  { unfold fvars, ovars. cbn. rewrite !app_nil_r. apply incl_refl. }
  intros s Hs. unfold fprod. cbn -[NetSpec.entry]. rewrite E. unfold NetSpec.entry. cbn.
  destruct (tget_Some M (map (lval s) ts)) as [v Hv]; [exact W| |].
  - rewrite Hd. unfold in_range. clear -Hs. unfold ovars in Hs. cbn in Hs.
    induction ts as [|t ts IH]; cbn; constructor.
    + apply lval_range. intros q Hq. apply Hs. cbn. apply in_app_iff. now left.
    + apply IH. intros l Hl. apply Hs. cbn. apply in_app_iff. now right.
  - rewrite Hv. f_equal. ring. Qed.

Lemma so_prodn (syms : list sym) s (ext : list nat) :
  (forall S, In S syms -> incl (fvars (s_fac S)) (ext ++ s_bnd S)) ->
  NoDup (flat_map s_bnd syms) -> (forall k, In k ext -> ~ In k (flat_map s_bnd syms)) ->
  prod_list (map (fun S => sum_over (s_bnd S) (fprod (s_fac S)) s) syms)
  = sum_over (flat_map s_bnd syms) (fprod (flat_map s_fac syms)) s.
Proof. induction syms as [|S syms IH]; cbn [map flat_map]; intros HI N HE.
  - reflexivity.
  - destruct (NoDup_app_inv _ _ N) as (N1 & N2 & N3).
    change (prod_list (?x :: ?y)) with (mul x (prod_list y)). rewrite IH.
    + rewrite (so_prod2 z o add mul SR D (s_bnd S) (flat_map s_bnd syms) (ext ++ s_bnd S) (ext ++ flat_map s_bnd syms)).
      * apply so_ext. intros s' _. unfold fprod. rewrite map_app. now rewrite (pl_app z o add mul SR).
      * eapply dep_incl; [apply fprod_dep|apply HI; now left].
      * eapply dep_incl; [apply fprod_dep|]. intros k Hk. unfold fvars in Hk. rewrite in_flat_map in Hk.
        destruct Hk as (f & Hf & Hk). apply in_flat_map in Hf. destruct Hf as (S' & HS' & Hf).
        assert (X : In k (ext ++ s_bnd S')).
        { apply (HI S'); [now right|]. unfold fvars. apply in_flat_map. eauto. }
        apply in_app_iff in X. apply in_app_iff. destruct X as [X|X]; [now left|right]. apply in_flat_map. eauto.
      * intros k Hk X. apply in_app_iff in X. destruct X as [X|X].
        -- apply (HE k X). apply in_app_iff. now right.
        -- exact (N3 k X Hk).
      * intros k Hk X. apply in_app_iff in X. destruct X as [X|X].
        -- apply (HE k X). apply in_app_iff. now left.
        -- exact (N3 k Hk X).
    + intros S' HS'. apply HI. now right.
    + exact N2.
    + intros k Hk X. apply (HE k Hk). apply in_app_iff. now right. Qed.

Lemma combine_map_snd {A B C} (f : B -> C) (l : list A) l' : combine l (map f l') = map (fun p => (fst p, f (snd p))) (combine l l').
Proof. revert l'; induction l as [|a l IH]; intros [|b l']; cbn; try reflexivity. now rewrite IH. Qed.

Lemma flat_map_concat_snd {A} (ops : list (A * list nat)) : flat_map snd ops = concat (map snd ops).
Proof. induction ops as [|op ops IH]; cbn; [reflexivity|now rewrite IH]. Qed.

Lemma rep_einsum ops syms out S : Forall2 (fun op S => rep S (fst op)) ops syms ->
  sym_einsum (map snd ops) syms out = Some S ->
  exists M, einsum z o add mul ops out = Ok M /\ rep S M.
Proof. intros HF HS. unfold sym_einsum in HS.
  set (mu := mu_of (map snd ops) syms) in *.
  set (sm := filter (fun l => negb (memb l out)) (distinct (concat (map snd ops)))) in *.
  destruct (_ && _) eqn:HC in HS; [|discriminate]. injection HS as <-.
  repeat rewrite andb_true_iff in HC. destruct HC as (((((Hl & Hlen) & Hmu) & Hno) & Hin) & Hnd).
  rewrite forallb_forall in Hlen, Hmu, Hin. apply nodupb_spec in Hno, Hnd.
  assert (Hdl : label_dims ops = map (fun p => (fst p, ldim (snd p))) mu).
  { unfold label_dims, mu, mu_of. clear -HF. induction HF as [|op S ops syms HR HF IH]; cbn; [reflexivity|].
    rewrite map_app, IH. f_equal. destruct HR as (_ & Hd & _). rewrite Hd. apply combine_map_snd. }
  assert (Hlen' : Forall2 (fun op S => length (snd op) = length (s_out S)) ops syms).
  { clear -HF Hlen. induction HF as [|op S ops syms HR HF IH]; constructor.
    - apply Nat.eqb_eq, (Hlen (snd op, S)). cbn. now left.
    - apply IH. intros x Hx. apply Hlen. cbn. now right. }
  assert (Hkeys : map fst mu = concat (map snd ops)).
  { unfold mu, mu_of. clear -Hlen'. induction Hlen' as [|op S ops syms HR HF IH]; cbn; [reflexivity|].
    rewrite map_app, IH. f_equal. now apply map_fst_combine. }
  assert (Hdim : forall l, In l (concat (map snd ops)) -> assoc (label_dims ops) l = ldim (mget mu l)).
  { intros l Hi. rewrite Hdl. unfold assoc, mget. rewrite dget_map_snd.
    destruct (dget mu l) eqn:E; [reflexivity|]. exfalso.
    apply dget_None in E. apply E. unfold dkeys. now rewrite Hkeys. }
  assert (Hsm : forall l, In l sm -> In l (concat (map snd ops))).
  { intros l Hi. apply filter_In in Hi. now apply In_distinct. }
  assert (Hout : forall l, In l out -> In l (concat (map snd ops))).
  { intros l Hi. now apply memb_spec, Hin. }
  unfold einsum. change (summed ops out) with (filter (fun l => negb (memb l out)) (distinct (flat_map snd ops))).
  rewrite flat_map_concat_snd. fold sm.
  match goal with |- context [if ?c then _ else _] => replace c with true end.
  2:{ symmetry. repeat (rewrite andb_true_iff). repeat split.
      - apply forallb_forall. intros op Hop. apply Nat.eqb_eq.
        clear -HF Hlen' Hop. induction HF as [|op' S ops syms HR HF IH]; [destruct Hop|].
        inversion Hlen'; subst. destruct Hop as [->|Hop]; [|now apply IH].
        destruct HR as (_ & Hd & _). rewrite Hd, map_length. assumption.
      - apply forallb_forall. intros [l d] Hld. rewrite Hdl in Hld. apply in_map_iff in Hld.
        destruct Hld as ((l' & t) & E & Hlt). cbn in E. injection E as -> <-. cbn. apply Nat.eqb_eq.
        rewrite Hdim.
        + specialize (Hmu _ Hlt). cbn in Hmu. apply leg_eqb_eq in Hmu. now rewrite Hmu at 1.
        + rewrite <- Hkeys. apply in_map_iff. now exists (l, t).
      - now apply nodupb_spec.
      - apply forallb_forall. exact Hin. }
  eexists. split; [reflexivity|].
  rewrite map_app, flat_map_app in Hnd.
  destruct (NoDup_app_inv _ _ Hnd) as (Hn1 & Hn2 & Hn3).
  destruct (NoDup_app_inv _ _ Hn1) as (Hn4 & Hn5 & Hn6).
  assert (Hfac : forall S, In S syms -> incl (fvars (s_fac S)) ((flat_map bonds (map (mget mu) out) ++ flat_map bonds (map (mget mu) sm)) ++ s_bnd S)).
  { assert (Hov : forall S, In S syms -> incl (ovars S) (flat_map bonds (map (mget mu) out) ++ flat_map bonds (map (mget mu) sm))).
    { intros S HS k Hk. unfold ovars in Hk. apply in_flat_map in Hk. destruct Hk as (t & Ht & Hk).
      assert (X : exists l, In (l, t) mu).
      { unfold mu, mu_of. clear -Hlen' HS Ht. induction Hlen' as [|op S' ops syms HR HF IH]; [destruct HS|].
        cbn. destruct HS as [->|HS].
        - destruct (In_nth _ _ (V 0) Ht) as (n & Hn & <-).
          exists (nth n (snd op) 0). apply in_app_iff. left. rewrite <- combine_nth by exact HR.
          apply nth_In. rewrite combine_length. lia.
        - destruct (IH HS) as (l & Hl). exists l. apply in_app_iff. now right. }
      destruct X as (l & Hlt). assert (E := Hmu _ Hlt). cbn in E. apply leg_eqb_eq in E.
      assert (Hl' : In l (concat (map snd ops))). { rewrite <- Hkeys. apply in_map_iff. now exists (l, t). }
      apply in_app_iff. destruct (in_dec Nat.eq_dec l out) as [X|X].
      - left. apply in_flat_map. exists t. split; [|exact Hk]. rewrite E. now apply in_map.
      - right. apply in_flat_map. exists t. split; [|exact Hk]. rewrite E. apply in_map.
        apply filter_In. split; [now apply In_distinct|]. now apply negb_true_iff, memb_false. }
    intros S HS k Hk. destruct (Forall2_In_r _ _ _ _ HF HS) as (op & _ & HR).
    destruct HR as (_ & _ & HI & _). apply HI in Hk. apply in_app_iff in Hk. apply in_app_iff.
    destruct Hk as [Hk|Hk]; [left; now apply (Hov S)|now right]. }
  split; [apply twf_tbuild|]. split.
  { cbn. rewrite map_map. apply map_ext_in. intros l Hl'. now apply Hdim, Hout. }
  split.
  { cbn. intros k Hk. unfold fvars in Hk. apply in_flat_map in Hk. destruct Hk as (f & Hf & Hk).
    apply in_flat_map in Hf. destruct Hf as (S & HS & Hf).
    assert (X : In k (fvars (s_fac S))) by (unfold fvars; apply in_flat_map; eauto).
    apply (Hfac S HS) in X. unfold ovars. cbn. rewrite !in_app_iff in *.
    destruct X as [[X|X]|X]; [tauto|tauto|]. right. right. apply in_flat_map. eauto. }
  intros s Hs. unfold ovars in Hs. cbn [s_out s_bnd s_fac] in Hs |- *.
  rewrite tget_tbuild.
  2:{ replace (map (assoc (label_dims ops)) out) with (map (fun l => ldim (mget mu l)) out) by (apply map_ext_in; intros l Hl'; symmetry; now apply Hdim, Hout).
      unfold in_range. rewrite map_map. clear -Hs. induction out as [|l out IH]; cbn; constructor.
      - apply lval_range. intros k Hk. apply Hs. cbn. apply in_app_iff. now left.
      - apply IH. intros k Hk. apply Hs. cbn. apply in_app_iff. now right. }
  f_equal.
  replace (map (assoc (label_dims ops)) sm) with (map ldim (map (mget mu) sm)).
  2:{ rewrite map_map. apply map_ext_in. intros l Hl'. symmetry. now apply Hdim, Hsm. }
  unfold nsum. change (fold_right add z ?l) with (sum_list l).
  rewrite (so_legs z o add mul SR D (map (mget mu) sm) Hn5 _ s).
  rewrite so_app. apply so_ext. intros s' [HA HB].
  rewrite <- (so_prodn syms s' (flat_map bonds (map (mget mu) out) ++ flat_map bonds (map (mget mu) sm))); [|exact Hfac|exact Hn2|exact Hn3].
  unfold nprod. change (fold_right mul o ?l) with (prod_list l). f_equal.
  assert (Hix : map (lval s) (map (mget mu) out) ++ map (lval s') (map (mget mu) sm) = map (fun l => lval s' (mget mu l)) (out ++ sm)).
  { rewrite map_app, !map_map. f_equal. apply map_ext_in. intros l Hl'. apply lval_ext. intros k Hk. symmetry. apply HA.
    apply Hn6. apply in_flat_map. exists (mget mu l). split; [now apply in_map|exact Hk]. }
  rewrite Hix. rewrite combine_map_snd. 
  assert (Hself : map (fun p : nat * nat => (fst p, lval s' (mget mu (snd p)))) (combine (out ++ sm) (out ++ sm)) = map (fun l => (l, lval s' (mget mu l))) (out ++ sm)).
  { generalize (out ++ sm). intros ls. induction ls as [|a ls IH]; cbn; [reflexivity|now rewrite IH]. }
  rewrite Hself. clear Hself Hix.
  assert (Hlook : forall l, In l (concat (map snd ops)) -> assoc (map (fun l => (l, lval s' (mget mu l))) (out ++ sm)) l = lval s' (mget mu l)).
  { intros l Hl'. unfold assoc. rewrite dget_self; [reflexivity|]. apply in_app_iff.
    destruct (in_dec Nat.eq_dec l out) as [X|X]; [now left|right]. apply filter_In. split; [now apply In_distinct|].
    now apply negb_true_iff, memb_false. }
  assert (Hrange : forall k, In k (flat_map bonds (map (mget mu) out) ++ flat_map bonds (map (mget mu) sm)) -> s' k < D k).
  { intros k Hk. destruct (in_dec Nat.eq_dec k (flat_map bonds (map (mget mu) sm))) as [X|X]; [now apply HB|].
    rewrite HA by exact X. apply Hs. apply in_app_iff in Hk. tauto. }
  assert (Hmu' : forall op S, In (op, S) (combine ops syms) -> map (assoc (map (fun l => (l, lval s' (mget mu l))) (out ++ sm))) (snd op) = map (lval s') (s_out S) /\ incl (ovars S) (flat_map bonds (map (mget mu) out) ++ flat_map bonds (map (mget mu) sm))).
  { intros op S Hop.
    assert (Hsub : incl (combine (snd op) (s_out S)) mu).
    { unfold mu, mu_of. clear -Hop. revert syms Hop. induction ops as [|op' ops IH]; intros [|S' syms] Hop; try destruct Hop.
      - injection H as -> ->. intros x Hx. cbn. apply in_app_iff. now left.
      - intros x Hx. cbn. apply in_app_iff. right. now apply (IH syms). }
    assert (Hlo : length (snd op) = length (s_out S)).
    { clear -Hlen' Hop. induction Hlen' as [|op' S' ops syms HR HF IH]; [destruct Hop|]. destruct Hop as [E|Hop]; [injection E as -> ->; exact HR|now apply IH]. }
    assert (Hcat : incl (snd op) (concat (map snd ops))).
    { intros l Hl'. apply in_concat. exists (snd op). split; [|exact Hl']. apply in_map. eapply in_combine_l; exact Hop. }
    assert (Hts : s_out S = map (mget mu) (snd op)).
    { clear -Hsub Hlo Hmu. revert Hlo Hsub. generalize (s_out S) as ts. induction (snd op) as [|l ls IH]; intros [|t ts] Hlo Hsub; cbn in *; try discriminate; [reflexivity|].
      rewrite <- (IH ts); [|lia|intros x Hx; apply Hsub; now right]. f_equal.
      specialize (Hmu (l, t) (Hsub _ (or_introl eq_refl))). cbn in Hmu. now apply leg_eqb_eq in Hmu. }
    split.
    - rewrite Hts, map_map. apply map_ext_in. intros l Hl'. apply Hlook, Hcat, Hl'.
    - intros k Hk. unfold ovars in Hk. apply in_flat_map in Hk. destruct Hk as (t & Ht & Hk).
      rewrite Hts in Ht. apply in_map_iff in Ht. destruct Ht as (l & <- & Hl'). apply in_app_iff.
      destruct (in_dec Nat.eq_dec l out) as [X|X].
      + left. apply in_flat_map. exists (mget mu l). split; [now apply in_map|exact Hk].
      + right. apply in_flat_map. exists (mget mu l). split; [|exact Hk]. apply in_map.
        apply filter_In. split; [now apply In_distinct, Hcat|]. now apply negb_true_iff, memb_false. }
  clear -HF Hmu' Hrange. revert Hrange Hmu'.
  generalize (assoc (map (fun l => (l, lval s' (mget mu l))) (out ++ sm))) as lookup.
  generalize (flat_map bonds (map (mget mu) out) ++ flat_map bonds (map (mget mu) sm)) as L. clear mu sm.
  intros L lookup Hrange Hmu'. induction HF as [|op S ops syms HR HF IH]; cbn [map]; [reflexivity|]. f_equal.
  - destruct (Hmu' op S) as [E1 E2]; [cbn; now left|]. rewrite E1. destruct HR as (_ & _ & _ & HV).
    unfold tel. rewrite HV; [reflexivity|]. intros l Hl. apply Hrange, E2, Hl.
  - apply IH. intros op' S' Hop. apply Hmu'. cbn. now right. Qed.

Lemma rep_dot A B ia ib SA SB S : rep SA A -> rep SB B -> sym_dot SA SB ia ib = Some S ->
  exists M, tensordot z o add mul A B ia ib = Ok M /\ rep S M.
Proof. intros HA HB HS. unfold sym_dot in HS. unfold tensordot.
  assert (La : length (tdims A) = length (s_out SA)) by (destruct HA as (_ & E & _); now rewrite E, map_length).
  assert (Lb : length (tdims B) = length (s_out SB)) by (destruct HB as (_ & E & _); now rewrite E, map_length).
  rewrite La, Lb. destruct (_ && _); [|discriminate].
  apply (rep_einsum _ [SA; SB]); [|exact HS]. constructor; [exact HA|]. constructor; [exact HB|constructor]. Qed.
End Rep.
