(** Views, permutations, and comparison of contractions. *)
From Verif Require Import Base BaseLemmas Tensor TensorLemmas Net NetSpec NetProofs NetProofs2.
From Coq Require Import Ring.
Open Scope list_scope.
Open Scope nat_scope.

(** ** row-major positions *)
Fixpoint flat (dims ix : list nat) : nat :=
  match dims, ix with d :: ds, i :: is => i * prod_dims ds + flat ds is | _, _ => 0 end.
Lemma prod_app a b : prod_dims (a ++ b) = prod_dims a * prod_dims b.
Proof. unfold prod_dims. induction a as [|d a IH]; cbn; [lia|rewrite IH; lia]. Qed.
Lemma flat_lt dims ix : in_range dims ix -> flat dims ix < prod_dims dims.
Proof. unfold in_range. induction 1 as [|d i ds is Hi HF IH]; cbn; [lia|]. fold (prod_dims ds). nia. Qed.
Lemma flat_app d1 i1 d2 i2 : length d1 = length i1 -> flat (d1 ++ d2) (i1 ++ i2) = flat d1 i1 * prod_dims d2 + flat d2 i2.
Proof. revert i1; induction d1 as [|d d1 IH]; intros [|i i1] E; cbn in *; try discriminate; [lia|].
  rewrite IH by lia. rewrite prod_app. lia. Qed.

Lemma nth_error_flat_map {A B} (f : A -> list B) n l k r : (forall a, In a l -> length (f a) = n) -> r < n ->
  nth_error (flat_map f l) (k * n + r) = match nth_error l k with Some a => nth_error (f a) r | None => None end.
Proof. revert k; induction l as [|a l IH]; intros k Hl Hr; cbn [flat_map].
  - assert (X : forall m, @nth_error B [] m = None) by (intros []; reflexivity). rewrite X. now destruct k.
  - destruct k as [|k]; cbn [nth_error].
    + rewrite nth_error_app1 by (rewrite Hl; [lia|now left]). reflexivity.
    + rewrite nth_error_app2 by (rewrite Hl; [lia|now left]). rewrite Hl by now left.
      replace (S k * n + r - n) with (k * n + r) by lia. apply IH; [intros b Hb; apply Hl; now right|exact Hr]. Qed.
Lemma nth_indices dims ix : in_range dims ix -> nth_error (indices dims) (flat dims ix) = Some ix.
Proof. unfold in_range. induction 1 as [|d i ds is Hi HF IH]; cbn [indices flat]; [reflexivity|].
  rewrite (nth_error_flat_map _ (prod_dims ds)).
  - assert (E : nth_error (seq 0 d) i = Some i).
    { rewrite (nth_error_nth' (seq 0 d) 0) by (rewrite seq_length; exact Hi). now rewrite seq_nth. }
    rewrite E. rewrite nth_error_map, IH. reflexivity.
  - intros a _. now rewrite map_length, length_indices.
  - now apply flat_lt. Qed.
Lemma dget_combine {A B} `{EqDec A} (l : list A) (v : list B) n a : NoDup l -> length l = length v ->
  nth_error l n = Some a -> dget (combine l v) a = nth_error v n.
Proof. revert v n; induction l as [|x l IH]; intros [|y v] [|n] N E Hn; cbn in *; try discriminate.
  - injection Hn as ->. destruct (eq_dec a a); congruence.
  - inversion N; subst. destruct (eq_dec a x) as [->|]; [|apply IH; [assumption|lia|assumption]].
    exfalso. apply nth_error_In in Hn. contradiction. Qed.
Lemma tget_flat {K} (t : tensor K) ix : twf t -> in_range (tdims t) ix -> tget t ix = nth_error (tdata t) (flat (tdims t) ix).
Proof. intros W R. unfold tget, telts. apply dget_combine; [apply NoDup_indices| |now apply nth_indices].
  now rewrite length_indices, W. Qed.

Section Legs.
Variable D : nat -> nat.
Lemma ldim_bonds t : ldim D t = prod_dims (map D (bonds t)).
Proof. induction t as [l|a IHa b IHb]; cbn; [lia|]. fold (prod_dims (map D (bonds a ++ bonds b))).
  now rewrite map_app, prod_app, IHa, IHb. Qed.
Lemma lval_bonds s t : lval D s t = flat (map D (bonds t)) (map s (bonds t)).
Proof. induction t as [l|a IHa b IHb]; cbn [lval bonds]; [cbn; lia|].
  now rewrite !map_app, flat_app, IHa, IHb, ldim_bonds by now rewrite !map_length. Qed.
Lemma dims_bonds ts : prod_dims (map (ldim D) ts) = prod_dims (map D (flat_map bonds ts)).
Proof. induction ts as [|t ts IH]; cbn [map flat_map]; [reflexivity|].
  rewrite map_app, prod_app, <- IH, <- ldim_bonds. reflexivity. Qed.
Lemma vals_bonds s ts : flat (map (ldim D) ts) (map (lval D s) ts) = flat (map D (flat_map bonds ts)) (map s (flat_map bonds ts)).
Proof. induction ts as [|t ts IH]; cbn [map flat_map flat]; [reflexivity|].
  rewrite !map_app, flat_app by now rewrite !map_length. now rewrite <- IH, lval_bonds, dims_bonds. Qed.
Lemma legs_range s ts : (forall l, In l (flat_map bonds ts) -> s l < D l) -> in_range (map (ldim D) ts) (map (lval D s) ts).
Proof. unfold in_range. induction ts as [|t ts IH]; cbn; intros Hs; constructor.
  - apply lval_range. intros k Hk. apply Hs, in_app_iff. now left.
  - apply IH. intros k Hk. apply Hs, in_app_iff. now right. Qed.

(** every index is the value of the legs for some assignment *)
Lemma leg_surj t : NoDup (bonds t) -> forall i s, i < ldim D t ->
  exists s', (forall k, ~ In k (bonds t) -> s' k = s k) /\ (forall k, In k (bonds t) -> s' k < D k) /\ lval D s' t = i.
Proof. induction t as [l|a IHa b IHb]; cbn [bonds ldim lval]; intros N i s Hi.
  - exists (upd s l i). repeat split.
    + intros k Hk. apply upd_other. intros ->. apply Hk. now left.
    + intros k [<-|[]]. now rewrite upd_same.
    + apply upd_same.
  - destruct (NoDup_app_inv _ _ N) as (Na & Nb & Nab).
    assert (Hb : ldim D b <> 0) by nia.
    destruct (IHa Na (i / ldim D b) s) as (s1 & A1 & A2 & A3); [apply Nat.div_lt_upper_bound; nia|].
    destruct (IHb Nb (i mod ldim D b) s1) as (s2 & B1 & B2 & B3); [now apply Nat.mod_upper_bound|].
    exists s2. repeat split.
    + intros k Hk. rewrite in_app_iff in Hk. rewrite B1, A1; tauto.
    + intros k Hk. apply in_app_iff in Hk. destruct Hk as [Hk|Hk]; [|now apply B2].
      rewrite B1; [now apply A2|now apply Nab].
    + rewrite B3. rewrite (lval_ext D a s2 s1), A3; [rewrite (Nat.div_mod i (ldim D b)) at 3 by exact Hb; lia|].
      intros k Hk. apply B1. now apply Nab. Qed.
Lemma legs_surj ts : NoDup (flat_map bonds ts) -> forall ix s, in_range (map (ldim D) ts) ix ->
  exists s', (forall k, ~ In k (flat_map bonds ts) -> s' k = s k) /\ (forall k, In k (flat_map bonds ts) -> s' k < D k) /\ map (lval D s') ts = ix.
Proof. unfold in_range. induction ts as [|t ts IH]; cbn [flat_map map]; intros N ix s R; inversion R; subst.
  - exists s. repeat split; [intros k []].
  - destruct (NoDup_app_inv _ _ N) as (Na & Nb & Nab).
    destruct (leg_surj t Na y s) as (s1 & A1 & A2 & A3); [assumption|].
    destruct (IH Nb l' s1) as (s2 & B1 & B2 & B3); [assumption|].
    exists s2. repeat split.
    + intros k Hk. rewrite in_app_iff in Hk. rewrite B1, A1; tauto.
    + intros k Hk. apply in_app_iff in Hk. destruct Hk as [Hk|Hk]; [|now apply B2].
      rewrite B1; [now apply A2|now apply Nab].
    + rewrite B3. f_equal. rewrite <- A3. apply lval_ext. intros k Hk. apply B1. now apply Nab. Qed.
End Legs.

(** ** permutations of lists, decided *)
Section PermB.
Context {A : Type} (e : A -> A -> bool).
Hypothesis He : forall a b, e a b = true -> a = b.
Fixpoint take_one (a : A) (l : list A) : option (list A) :=
  match l with [] => None | b :: l' => if e a b then Some l' else match take_one a l' with Some r => Some (b :: r) | None => None end end.
Fixpoint permb (l1 l2 : list A) : bool :=
  match l1 with
  | [] => match l2 with [] => true | _ => false end
  | a :: l1' => match take_one a l2 with Some r => permb l1' r | None => false end
  end.
Lemma take_one_perm a l r : take_one a l = Some r -> Permutation l (a :: r).
Proof. revert r; induction l as [|b l IH]; cbn; intros r; [discriminate|].
  destruct (e a b) eqn:E; [intros X; injection X as <-; apply He in E; now subst|].
  destruct (take_one a l) as [r'|]; [|discriminate]. intros X. injection X as <-.
  etransitivity; [apply perm_skip, IH; reflexivity|apply perm_swap]. Qed.
Lemma permb_perm l1 l2 : permb l1 l2 = true -> Permutation l1 l2.
Proof. revert l2; induction l1 as [|a l1 IH]; cbn; intros l2; [destruct l2; [reflexivity|discriminate]|].
  destruct (take_one a l2) as [r|] eqn:E; [|discriminate]. intros X.
  etransitivity; [apply perm_skip, IH, X|]. symmetry. now apply take_one_perm. Qed.
End PermB.
Fixpoint legs_eqb (l1 l2 : list leg) : bool :=
  match l1, l2 with [], [] => true | a :: l1', b :: l2' => leg_eqb a b && legs_eqb l1' l2' | _, _ => false end.
Lemma legs_eqb_eq l1 l2 : legs_eqb l1 l2 = true -> l1 = l2.
Proof. revert l2; induction l1 as [|a l1 IH]; intros [|b l2]; cbn; try congruence.
  intros E. apply andb_true_iff in E. destruct E as [E1 E2]. apply leg_eqb_eq in E1. rewrite E1, (IH _ E2). reflexivity. Qed.
Definition fac_eqb (f g : nat * list leg) : bool := (fst f =? fst g) && legs_eqb (snd f) (snd g).
Lemma fac_eqb_eq f g : fac_eqb f g = true -> f = g.
Proof. destruct f as [k l], g as [k' l']. unfold fac_eqb. cbn. intros E. apply andb_true_iff in E. destruct E as [E1 E2].
  apply Nat.eqb_eq in E1. apply legs_eqb_eq in E2. now subst. Qed.

Definition sym_view (S : sym) (out : list leg) : option sym :=
  if forallb (fun p => fst p =? snd p) (combine (ovars S) (flat_map bonds out)) && (length (ovars S) =? length (flat_map bonds out))
  then Some (mkS out (s_bnd S) (s_fac S)) else None.
Definition sym_perm (S : sym) (p : list nat) : option sym :=
  if is_permb p (length (s_out S)) then Some (mkS (map (fun k => nth k (s_out S) (V 0)) p) (s_bnd S) (s_fac S)) else None.
(** the bonds to be summed *)
Definition to_sum (fac : list (nat * list leg)) (out : list leg) : list nat :=
  filter (fun l => if in_dec Nat.eq_dec l (flat_map bonds out) then false else true) (nodup Nat.eq_dec (fvars fac)).
Definition sym_is (S : sym) (fac : list (nat * list leg)) (out : list leg) : bool :=
  legs_eqb (s_out S) out && permb Nat.eqb (s_bnd S) (to_sum fac out) && permb fac_eqb (s_fac S) fac.

Section Rep.
Context {K : Type} (z o : K) (add mul : K -> K -> K).
Hypothesis SR : semi_ring_theory z o add mul eq.
Add Ring Kring : SR.
Variable D : nat -> nat.
Variable env : nat -> tensor K.
Notation rep := (rep z o add mul D env).
Notation ldim := (ldim D).
Notation lval := (lval D).

Lemma combine_eq l1 l2 : forallb (fun p => fst p =? snd p) (combine l1 l2) = true -> length l1 = length l2 -> l1 = l2.
Proof. revert l2; induction l1 as [|a l1 IH]; intros [|b l2]; cbn; try discriminate; [reflexivity|].
  intros E L. apply andb_true_iff in E. destruct E as [E1 E2]. apply Nat.eqb_eq in E1. f_equal; [exact E1|]. apply IH; [exact E2|lia]. Qed.

Lemma rep_view_gen S out S' M M' : rep S M -> sym_view S out = Some S' ->
  tdata M' = tdata M -> tdims M' = map ldim out -> rep S' M'.
Proof. intros (W & Hd & HI & HV) HS E1 E2. unfold sym_view in HS. destruct (_ && _) eqn:HC in HS; [|discriminate].
  injection HS as <-. apply andb_true_iff in HC. destruct HC as [C1 C2]. apply Nat.eqb_eq in C2.
  assert (HO := combine_eq _ _ C1 C2). clear C1 C2.
  assert (W' : twf M'). { unfold twf. rewrite E1, E2, dims_bonds, <- HO. unfold ovars. rewrite <- dims_bonds, <- Hd. exact W. }
  split; [exact W'|]. split; [exact E2|]. split.
  { unfold ovars in *. cbn. rewrite <- HO. exact HI. }
  intros s Hs. cbn [s_out s_bnd s_fac]. unfold ovars in Hs. cbn in Hs. rewrite <- HO in Hs.
  rewrite <- (HV s Hs). rewrite !tget_flat; [|exact W| |exact W'|].
  - rewrite E1, E2, Hd, !vals_bonds. unfold ovars in HO. now rewrite HO.
  - rewrite Hd. apply legs_range, Hs.
  - rewrite E2. apply legs_range. rewrite <- HO. exact Hs. Qed.
Lemma rep_view S out S' M dims : rep S M -> sym_view S out = Some S' -> dims = map ldim out ->
  exists M', view M dims = Ok M' /\ rep S' M'.
Proof. intros HR HS ->. unfold view, treshape.
  assert (HL : length (tdata M) = prod_dims (map ldim out)).
  { assert (HS' := HS). unfold sym_view in HS'. destruct (_ && _) eqn:HC in HS'; [|discriminate].
    apply andb_true_iff in HC. destruct HC as [C1 C2]. apply Nat.eqb_eq in C2.
    assert (HO := combine_eq _ _ C1 C2). destruct HR as (W & Hd & _). rewrite W, Hd, !dims_bonds. unfold ovars in HO. now rewrite HO. }
  rewrite HL, Nat.eqb_refl. eexists. split; [reflexivity|]. eapply rep_view_gen; [exact HR|exact HS|reflexivity|reflexivity]. Qed.
Lemma rep_view_rest S out t S' M dims : rep S M -> sym_view S (out ++ [t]) = Some S' -> dims = map ldim out -> prod_dims dims <> 0 ->
  exists M', view_rest M dims = Ok M' /\ rep S' M'.
Proof. intros HR HS -> HN. unfold view_rest.
  assert (HL : length (tdata M) = prod_dims (map ldim out) * ldim t).
  { assert (HS' := HS). unfold sym_view in HS'. destruct (_ && _) eqn:HC in HS'; [|discriminate].
    apply andb_true_iff in HC. destruct HC as [C1 C2]. apply Nat.eqb_eq in C2.
    assert (HO := combine_eq _ _ C1 C2). destruct HR as (W & Hd & _). rewrite W, Hd, dims_bonds. unfold ovars in HO. rewrite HO, <- dims_bonds, map_app, prod_app.
    cbn. lia. }
  rewrite HL. apply Nat.eqb_neq in HN. rewrite HN. apply Nat.eqb_neq in HN.
  rewrite Nat.mul_comm, Nat.mod_mul, Nat.eqb_refl, Nat.div_mul by exact HN. cbn [orb negb].
  eexists. split; [reflexivity|]. eapply rep_view_gen; [exact HR|exact HS|reflexivity|]. cbn. now rewrite map_app. Qed.

Lemma rep_perm S p S' M : rep S M -> sym_perm S p = Some S' -> exists M', permute z M p = Ok M' /\ rep S' M'.
Proof. intros (W & Hd & HI & HV) HS. unfold sym_perm in HS. destruct (is_permb p (length (s_out S))) eqn:HP; [|discriminate]. injection HS as <-.
  assert (HP' : is_permb p (length (tdims M)) = true) by (now rewrite Hd, map_length).
  unfold permute. destruct (tpermute z M p) as [M'|e] eqn:E; [|unfold tpermute in E; rewrite HP' in E; discriminate].
  exists M'. split; [reflexivity|].
  assert (PS := proj1 (is_permb_spec _ _) HP).
  assert (Hp : forall k, In k p -> k < length (s_out S)). { intros k Hk. apply (Permutation_in _ PS) in Hk. apply in_seq in Hk. lia. }
  assert (Hlp : length p = length (s_out S)). { apply Permutation_length in PS. now rewrite seq_length in PS. }
  assert (PO : Permutation (map (fun k => nth k (s_out S) (V 0)) p) (s_out S)).
  { rewrite (Permutation_map _ PS). clear. generalize (s_out S) as l. intros l.
    replace (map (fun k => nth k l (V 0)) (seq 0 (length l))) with l; [reflexivity|].
    apply (nth_ext _ _ (V 0) (V 0)); [now rewrite map_length, seq_length|]. intros n Hn.
    rewrite (nth_map_lt _ _ _ _ 0) by now rewrite seq_length. now rewrite seq_nth. }
  unfold tpermute in E. rewrite HP' in E. injection E as <-.
  split; [apply twf_tbuild|]. split.
  { cbn. rewrite map_map. apply map_ext_in. intros k Hk. rewrite Hd. apply nth_map_lt. now apply Hp. }
  split.
  { cbn. unfold ovars in *. cbn. intros k Hk. apply HI in Hk. rewrite in_app_iff in *. destruct Hk as [Hk|Hk]; [left|now right].
    revert Hk. rewrite !in_flat_map. intros (t & Ht & Hk). exists t. split; [|exact Hk]. symmetry in PO. now apply (Permutation_in _ PO). }
  intros s Hs. cbn [s_out s_bnd s_fac].
  assert (Hs' : forall l, In l (ovars S) -> s l < D l).
  { intros l Hl. apply Hs. unfold ovars in *. cbn. revert Hl. rewrite !in_flat_map. intros (t & Ht & Hk). exists t. split; [|exact Hk]. symmetry in PO. now apply (Permutation_in _ PO). }
  rewrite tget_tbuild.
  2:{ rewrite Hd. assert (R := legs_range D s _ Hs'). unfold in_range in *. clear -R Hp. rewrite map_map.
      induction p as [|k p IH]; cbn; constructor.
      - rewrite (nth_map_lt ldim _ _ _ (V 0)) by (apply Hp; now left).
        apply in_range_nth in R. destruct R as [R1 R2]. specialize (R2 k). rewrite map_length in R2.
        specialize (R2 (Hp k (or_introl eq_refl))). rewrite !(nth_map_lt _ _ _ _ (V 0)) in R2 by (apply Hp; now left). exact R2.
      - apply IH. intros q Hq. apply Hp. now right. }
  rewrite <- (HV s Hs').
  replace (unperm p (map (lval s) (map (fun k => nth k (s_out S) (V 0)) p))) with (map (lval s) (s_out S)).
  - destruct (tget_Some M (map (lval s) (s_out S)) W) as [v Hv]; [rewrite Hd; now apply legs_range|]. now rewrite Hv.
  - apply (nth_ext _ _ 0 0); [now rewrite length_unperm, map_length|]. rewrite map_length. intros n Hn.
    assert (Hi : In n p). { symmetry in PS. apply (Permutation_in _ PS), in_seq. lia. }
    unfold unperm. rewrite (nth_map_lt _ _ _ _ 0) by (rewrite seq_length; lia). rewrite seq_nth by lia. cbn [plus].
    destruct (nth_pos p n Hi) as [E1 E2]. rewrite map_map, (nth_map_lt _ p _ _ 0) by exact E2. rewrite E1. apply nth_map_lt; exact Hn. Qed.

(** a tensor is determined by its network *)
Lemma rep_eq S1 S2 M1 M2 : rep S1 M1 -> rep S2 M2 -> legs_eqb (s_out S1) (s_out S2) = true -> nodupb (ovars S1) = true ->
  permb Nat.eqb (s_bnd S1) (s_bnd S2) = true -> permb fac_eqb (s_fac S1) (s_fac S2) = true -> M1 = M2.
Proof. intros (W1 & D1 & I1 & V1) (W2 & D2 & I2 & V2) EO N PB PF. apply legs_eqb_eq in EO. apply nodupb_spec in N.
  apply (permb_perm _ (fun a b H => proj1 (Nat.eqb_eq a b) H)) in PB. apply (permb_perm _ fac_eqb_eq) in PF.
  apply tensor_ext; [exact W1|exact W2|now rewrite D1, D2, EO|].
  intros ix R. rewrite D1 in R. destruct (legs_surj D _ N ix (fun _ => 0) R) as (s & _ & Hs & <-).
  rewrite V1 by exact Hs. rewrite EO, V2.
  2:{ intros l Hl. apply Hs. unfold ovars in Hl. now rewrite EO. }
  f_equal. rewrite (so_perm z o add mul SR D _ _ (fvars (s_fac S1)) _ PB); [|apply fprod_dep].
  apply so_ext. intros s' _. unfold fprod. apply (pl_perm z o add mul SR). now apply Permutation_map. Qed.

Lemma rep_contraction S fac out M : rep S M -> sym_is S fac out = true ->
  is_contraction D z o add mul (map (fun f => (env (fst f), snd f)) fac) out M.
Proof. intros (W & Hd & HI & HV) HS. unfold sym_is in HS. rewrite !andb_true_iff in HS. destruct HS as [[EO PB] PF].
  apply legs_eqb_eq in EO. apply (permb_perm _ (fun a b H => proj1 (Nat.eqb_eq a b) H)) in PB. apply (permb_perm _ fac_eqb_eq) in PF.
  subst out. split; [exact W|]. split; [exact Hd|]. intros s Hs. rewrite HV by exact Hs. f_equal.
  replace (inner (map (fun f => (env (fst f), snd f)) fac) (s_out S)) with (to_sum fac (s_out S)).
  2:{ unfold to_sum, inner, net_bonds. f_equal. f_equal. unfold fvars. rewrite !flat_map_concat_map, map_map. reflexivity. }
  rewrite (so_perm z o add mul SR D _ _ (fvars (s_fac S)) _ PB); [|apply fprod_dep].
  apply so_ext. intros s' _. unfold fprod, product. rewrite map_map. apply (pl_perm z o add mul SR).
  apply (Permutation_map (fun f : nat * list leg => entry z (env (fst f)) (map (lval s') (snd f)))). exact PF. Qed.
End Rep.
