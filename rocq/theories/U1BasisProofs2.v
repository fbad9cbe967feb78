(** Proofs about the U(1) filter and the basis tensors. *)
From Coq Require Import Permutation.
From Verif Require Import Base BaseLemmas Tensor TensorLemmas C4vSpec C4vProofs U1Basis U1BasisSpec U1BasisProofs.
Open Scope list_scope.
Open Scope nat_scope.
Open Scope res_scope.

(** ** the filter *)
Lemma charges_ok d cs x : Forall (fun i => d + i < length cs) x ->
  mapM (fun i => charge_at cs (d + i)) x = Ok (map (fun i => nth (d + i) cs 0%Z) x).
Proof.
  induction 1 as [|i x Hi H IH]; [easy|]. cbn [mapM map]. rewrite IH. unfold charge_at.
  now rewrite (nth_error_nth' cs 0%Z Hi).
Qed.
Lemma zsum_fold d cs x : zsum (map (fun i => nth (d + i) cs 0%Z) x) = fold_right (fun i acc => nth (d + i) cs 0 + acc)%Z 0%Z x.
Proof. induction x as [|i x IH]; [easy|]. cbn. now rewrite <- IH. Qed.
Lemma filter_ok d cs tot s x : s < length cs -> Forall (fun i => d + i < length cs) x ->
  u1_filter cs tot d (s :: x) = Ok (charge d cs s x =? tot)%Z.
Proof.
  intros Hs Hx. unfold u1_filter. unfold charge_at at 1. rewrite (nth_error_nth' cs 0%Z Hs). cbn [bind]. rewrite charges_ok by easy. cbn [bind].
  unfold charge. cbn [zsum fold_right]. change (fold_right Z.add 0%Z ?l) with (zsum l). now rewrite zsum_fold.
Qed.
Lemma filter_err d cs tot s x : s < length cs -> ~ Forall (fun i => d + i < length cs) x -> u1_filter cs tot d (s :: x) = Err IndexError.
Proof.
  intros Hs Hx. unfold u1_filter. unfold charge_at at 1. rewrite (nth_error_nth' cs 0%Z Hs). cbn [bind].
  assert (E : mapM (fun i => charge_at cs (d + i)) x = Err IndexError); [|now rewrite E].
  induction x as [|i x IH]; [exfalso; apply Hx; constructor|]. cbn [mapM]. unfold charge_at at 1.
  destruct (nth_error cs (d + i)) eqn:E; [|easy]. cbn [bind]. rewrite IH; [easy|].
  intros H. apply Hx. constructor; [|easy]. apply nth_error_Some. congruence.
Qed.
Lemma charge_perm d cs s x y : Permutation x y -> charge d cs s x = charge d cs s y.
Proof. intros H. unfold charge. f_equal. induction H; cbn; lia. Qed.
Lemma filter_perm d cs tot s x y : Permutation x y -> u1_filter cs tot d (s :: x) = u1_filter cs tot d (s :: y).
Proof.
  intros H. destruct (Nat.lt_ge_cases s (length cs)) as [Hs|Hs].
  - assert (Hd : {Forall (fun i => d + i < length cs) x} + {~ Forall (fun i => d + i < length cs) x}) by (apply Forall_dec; intros; apply lt_dec).
    destruct Hd as [Hx|Hx].
    + rewrite !filter_ok, (charge_perm d cs s x y H); try easy. now rewrite <- H.
    + rewrite !filter_err; try easy. now rewrite <- H.
  - unfold u1_filter. unfold charge_at at 1 3. apply nth_error_None in Hs. now rewrite Hs.
Qed.
Lemma charge_constant D gs o x y d cs tot s : gen_upto_D D = Ok gs -> In o (concat gs) -> In x o -> In y o ->
  u1_filter cs tot d (s :: x) = u1_filter cs tot d (s :: y).
Proof.
  intros E Ho Hx Hy. destruct (gen_upto_partition D) as (gs' & E' & [_ H] & _). assert (gs' = gs) by congruence. subst gs'.
  destruct (H o Ho) as (_ & _ & H'). destruct (H' x Hx) as [[Hl _] Hor]. apply Hor in Hy. apply (In_images x y Hl) in Hy.
  apply filter_perm. now apply images_perm.
Qed.

(** ** one basis tensor *)
Section T.
Variables (D d : nat).
Definition T (o : list tup) : tensor Z :=
  tbuild [2; D; D; D; D] (fun ix => match ix with s :: x => if (s =? d) && existsb (eqb x) o then 1%Z else 0%Z | [] => 0%Z end).
Lemma range_bonds s x : in_range [2; D; D; D; D] (s :: x) <-> s < 2 /\ bonds D x.
Proof.
  split.
  - intros H. inversion H as [|? ? ? ? Hs H1]; subst. cbn beta in Hs. split; [easy|].
    inversion H1 as [|? a ? x1 Ha H2]; subst. inversion H2 as [|? b ? x2 Hb H3]; subst. inversion H3 as [|? c ? x3 Hc H4]; subst. inversion H4 as [|? e ? x4 He H5]; subst. inversion H5; subst.
    split; [easy|]. repeat constructor; easy.
  - intros [Hs [Hl Hf]]. destruct (len4 x Hl) as (a & b & c & e & ->).
    inversion Hf as [|? ? H1 Hf1]; subst. inversion Hf1 as [|? ? H2 Hf2]; subst. inversion Hf2 as [|? ? H3 Hf3]; subst. inversion Hf3 as [|? ? H4 _]; subst.
    apply Forall2_cons; [exact Hs|]. apply Forall2_cons; [exact H1|]. apply Forall2_cons; [exact H2|]. apply Forall2_cons; [exact H3|]. apply Forall2_cons; [exact H4|]. apply Forall2_nil.
Qed.
Lemma bel_T o s x : s < 2 -> bonds D x -> bel (T o) s x = if (s =? d) && existsb (eqb x) o then 1%Z else 0%Z.
Proof. intros Hs Hx. unfold bel, el, T. rewrite tget_tbuild; [easy|]. now apply range_bonds. Qed.
Lemma onsite_T o : onsite 2 D (T o).
Proof. split; [apply twf_tbuild|easy]. Qed.

Lemma basis_tensor_ok o : d < 2 -> Forall (bonds D) o -> basis_tensor D d o = Ok (T o).
Proof.
  intros Hd Hf. unfold basis_tensor.
  assert (H : forall o1 o2 t, Forall (bonds D) o2 -> twf t -> tdims t = [2; D; D; D; D] ->
    (forall ix, in_range [2; D; D; D; D] ix -> tget t ix = tget (T o1) ix) ->
    foldM (fun t x => tupdate t (map Z.of_nat (d :: x)) (fun _ => 1%Z)) o2 t = Ok (T (o1 ++ o2))).
  { clear o Hf. intros o1 o2. revert o1. induction o2 as [|x o2 IH]; intros o1 t Hf Hw Hdim Ht.
    - cbn [foldM]. rewrite app_nil_r. f_equal. apply tensor_ext; [easy|apply twf_tbuild|now rewrite Hdim|].
      rewrite Hdim. intros ix Hix. now apply Ht.
    - inversion Hf as [|? ? Hx Hf']; subst. cbn [foldM].
      assert (Hr : in_range [2; D; D; D; D] (d :: x)) by now apply range_bonds.
      assert (Hn : norm_indices (tdims t) (map Z.of_nat (d :: x)) = Ok (d :: x)) by (rewrite Hdim; now apply norm_indices_nat).
      destruct (tupdate_ok t (map Z.of_nat (d :: x)) (fun _ => 1%Z) _ Hn) as (t' & E). rewrite E. cbn [bind].
      destruct (tupdate_spec t _ _ t' Hw E) as (p & Hp & Hw' & Hd' & Hg). assert (p = d :: x) by congruence. subst p.
      replace (o1 ++ x :: o2) with ((o1 ++ [x]) ++ o2) by now rewrite <- app_assoc.
      apply IH; [easy|easy|congruence|]. intros ix Hix. rewrite Hg, (Ht ix Hix).
      unfold T at 1. rewrite tget_tbuild by easy. unfold T. rewrite tget_tbuild by easy. cbn [option_map]. f_equal.
      pose proof (in_range_length _ _ Hix) as Hl. pose proof (in_range_length _ _ Hr) as Hl'.
      destruct ix as [|s y]; [easy|]. destruct (is_prefix (d :: x) (s :: y)) eqn:Ep.
      + apply is_prefix_full in Ep; [|congruence]. injection Ep as -> ->.
        rewrite Nat.eqb_refl. cbn [andb]. replace (existsb (eqb y) (o1 ++ [y])) with true; [easy|]. symmetry. apply existsb_In, in_or_app. right; now left.
      + destruct (Nat.eqb_spec s d) as [->|]; [|easy]. cbn [andb].
        replace (existsb (eqb y) (o1 ++ [x])) with (existsb (eqb y) o1); [easy|].
        rewrite existsb_app. cbn [existsb]. rewrite Bool.orb_false_r.
        replace (eqb y x) with false; [now rewrite Bool.orb_false_r|]. symmetry. apply (@eqb_false (list nat)). intros ->.
        assert (Hc : is_prefix (d :: x) (d :: x) = true) by now apply is_prefix_full. congruence. }
  apply (H [] o); [easy|apply twf_tzeros|easy|].
  intros ix Hix. rewrite tget_tzeros by easy. unfold T. rewrite tget_tbuild by easy. destruct ix as [|s y]; [easy|]. now rewrite Bool.andb_false_r.
Qed.
Lemma basis_tensor_err o x : 2 <= d -> basis_tensor D d (x :: o) = Err IndexError.
Proof.
  intros Hd. assert (E : norm_index 2 (Z.of_nat d) = Err IndexError).
  { unfold norm_index. destruct (Z.ltb_spec (Z.of_nat d) (Z.of_nat 2)); [lia|]. rewrite Bool.andb_false_r.
    destruct (Z.ltb_spec (Z.of_nat d) 0); [lia|]. now rewrite Bool.andb_false_r. }
  unfold basis_tensor. cbn [foldM]. unfold tupdate at 1. cbn [tdims tzeros tbuild map norm_indices]. rewrite E. reflexivity.
Qed.
End T.

(** ** the basis *)
Lemma length_append_at {A} d (x : list A) l : length (append_at d x l) = length l.
Proof. revert d; induction l as [|a l IH]; intros [|d]; cbn; auto. Qed.
Lemma append_at_map {A} (f : nat -> list A) n k (x : list A) : k < n ->
  append_at k x (map f (seq 0 n)) = map (fun i => if i =? k then f i ++ x else f i) (seq 0 n).
Proof.
  intros Hk. assert (H : forall m, append_at k x (map f (seq m n)) = map (fun i => if i =? m + k then f i ++ x else f i) (seq m n)); [|apply (H 0)].
  revert k Hk. induction n as [|n IH]; intros k Hk m; [lia|]. destruct k as [|k]; cbn [seq map append_at].
  - rewrite Nat.add_0_r, Nat.eqb_refl. f_equal. apply map_ext_in. intros i Hi. apply in_seq in Hi. destruct (Nat.eqb_spec i m); [lia|easy].
  - destruct (Nat.eqb_spec m (m + S k)); [lia|]. f_equal. rewrite IH by lia. apply map_ext. intros i. now replace (S m + k) with (m + S k) by lia.
Qed.
Lemma foldM_seq {S'} (f : S' -> nat -> res S') (P : nat -> S' -> Prop) n s0 : P 0 s0 ->
  (forall k s, k < n -> P k s -> exists s', f s k = Ok s' /\ P (S k) s') -> exists s', foldM f (seq 0 n) s0 = Ok s' /\ P n s'.
Proof.
  intros H0 Hs. assert (H : forall m k s, m + k = n -> P k s -> exists s', foldM f (seq k m) s = Ok s' /\ P n s'); [|apply (H n 0); [lia|easy]].
  induction m as [|m IH]; intros k s E Hp; cbn [seq foldM]; [exists s; split; [easy|now replace n with k by lia]|].
  destruct (Hs k s ltac:(lia) Hp) as (s' & -> & Hp'). cbn [bind]. apply (IH (S k) s'); [lia|easy].
Qed.

Section B.
Variable pick : list tup -> option tup.
Hypothesis Hpick : picks pick.
Variables (D n : nat) (Hn : n <= 2).
Variable sel : nat -> list tup -> bool.
Variable flt : option (tup -> res bool).
Hypothesis Hflt : forall d o, d < n -> (forall x, In x o -> bonds D x /\ orbit_of o x) -> o <> [] ->
  match flt with
  | Some f => match pick o with Some y => f (d :: y) | None => Err PyException end = Ok (sel d o)
  | None => sel d o = true
  end.

Definition good (o : list tup) : Prop := o <> [] /\ NoDup o /\ forall x, In x o -> bonds D x /\ orbit_of o x.
Lemma select_ok d g : d < n -> Forall good g ->
  match flt with
  | Some f => filterM (fun x => match pick x with Some y => f (d :: y) | None => Err PyException end) g
  | None => Ok g
  end = Ok (filter (sel d) g).
Proof.
  intros Hd Hg. destruct flt as [f|].
  - induction Hg as [|o g (H1 & H2 & H3) Hg IH]; [easy|]. cbn [filterM filter].
    rewrite (Hflt d o Hd H3 H1). cbn [bind]. rewrite IH. cbn [bind]. now destruct (sel d o).
  - f_equal. induction Hg as [|o g (H1 & H2 & H3) Hg IH]; [easy|]. cbn [filter]. rewrite (Hflt d o Hd H3 H1). now rewrite <- IH.
Qed.
Lemma tensors_ok d g : d < n -> Forall good g -> mapM (basis_tensor D d) g = Ok (map (T D d) g).
Proof.
  intros Hd Hg. induction Hg as [|o g (H1 & H2 & H3) Hg IH]; [easy|]. cbn [mapM map].
  rewrite basis_tensor_ok; [|lia|apply Forall_forall; intros x Hx; now apply H3]. cbn [bind]. rewrite IH. easy.
Qed.
Definition cell (gs : list (list (list tup))) (d : nat) : list (tensor Z) := map (T D d) (filter (sel d) (concat gs)).
Lemma concat_app1 {A} (l : list (list A)) x : concat (l ++ [x]) = concat l ++ x.
Proof. rewrite concat_app. cbn. now rewrite app_nil_r. Qed.

Lemma basis_list : exists gs, gen_upto_D D = Ok gs /\ Forall (Forall good) gs /\
  get_basis_upto_D pick D n flt = Ok (concat (map (cell gs) (seq 0 n))).
Proof.
  destruct (gen_upto_partition D) as (gs & E & [_ Hp] & _). exists gs. split; [easy|].
  assert (Hg : Forall (Forall good) gs).
  { apply Forall_forall. intros g Hg. apply Forall_forall. intros o Ho. apply Hp. apply in_concat. eauto. }
  split; [easy|]. unfold get_basis_upto_D. rewrite E. cbn [bind].
  match goal with |- context [foldM ?f gs ?s] => set (step := f) end.
  assert (H : forall g1 g2, Forall (Forall good) g2 -> foldM step g2 (map (cell g1) (seq 0 n)) = Ok (map (cell (g1 ++ g2)) (seq 0 n))).
  { intros g1 g2 H2. revert g1. induction H2 as [|g g2 Hgg H2 IH]; intros g1; cbn [foldM]; [now rewrite app_nil_r|].
    assert (E1 : step (map (cell g1) (seq 0 n)) g = Ok (map (cell (g1 ++ [g])) (seq 0 n))).
    { unfold step.
      match goal with |- foldM ?f _ _ = _ => set (st := f) end.
      destruct (foldM_seq st (fun k s => s = map (fun i => if i <? k then cell (g1 ++ [g]) i else cell g1 i) (seq 0 n)) n (map (cell g1) (seq 0 n))) as (s' & -> & ->).
      - now apply map_ext.
      - intros k s Hk ->. unfold st. rewrite (select_ok k g Hk Hgg). cbn [bind].
        rewrite tensors_ok; [|easy|].
        + cbn [bind]. eexists. split; [reflexivity|]. rewrite append_at_map by easy. apply map_ext_in. intros i Hi.
          destruct (Nat.eqb_spec i k) as [->|].
          * rewrite Nat.ltb_irrefl, (proj2 (Nat.ltb_lt k (S k))) by lia. unfold cell. rewrite concat_app1, filter_app, map_app. easy.
          * destruct (Nat.ltb_spec i k), (Nat.ltb_spec i (S k)); try easy; lia.
        + apply Forall_forall. intros o Ho. apply filter_In in Ho as [Ho _]. rewrite Forall_forall in Hgg. auto.
      - f_equal. apply map_ext_in. intros i Hi. apply in_seq in Hi. now rewrite (proj2 (Nat.ltb_lt i n)) by lia. }
    rewrite E1. cbn [bind]. rewrite IH. now rewrite <- app_assoc. }
  specialize (H [] gs Hg).
  replace (repeat [] n) with (map (cell []) (seq 0 n)).
  - rewrite H. easy.
  - clear. unfold cell. cbn. generalize 0. induction n as [|m IH]; intros k; [easy|]. cbn. now rewrite IH.
Qed.

(** all basis tensors as (physical index, orbit) pairs *)
Definition pairs (gs : list (list (list tup))) : list (nat * list tup) := flat_map (fun d => map (pair d) (filter (sel d) (concat gs))) (seq 0 n).
Lemma cells_pairs gs : concat (map (cell gs) (seq 0 n)) = map (fun p => T D (fst p) (snd p)) (pairs gs).
Proof.
  unfold pairs, cell. induction (seq 0 n) as [|d l IH]; [easy|]. cbn. rewrite map_app, IH, map_map. easy.
Qed.
Lemma In_pairs gs d o : In (d, o) (pairs gs) <-> d < n /\ In o (concat gs) /\ sel d o = true.
Proof.
  clear Hn Hflt. unfold pairs. rewrite in_flat_map. split.
  - intros (d' & Hd & H). apply in_map_iff in H as (o' & E & H). injection E as <- <-. apply in_seq in Hd. apply filter_In in H as [H1 H2]. repeat split; try easy; lia.
  - intros (Hd & H1 & H2). exists d. split; [apply in_seq; lia|]. apply in_map. now apply filter_In.
Qed.
End B.

Lemma FOP_map_pair {A} (R : A -> A -> Prop) (d : nat) l : ForallOrdPairs R l -> ForallOrdPairs (fun p p' => fst p = fst p' -> R (snd p) (snd p')) (map (pair d) l).
Proof.
  induction 1 as [|a l Ha H IH]; cbn; constructor; [|easy]. apply Forall_forall. intros p Hp. apply in_map_iff in Hp as (b & <- & Hb).
  cbn. intros _. rewrite Forall_forall in Ha. auto.
Qed.
Lemma FOP_filter {A} (R : A -> A -> Prop) f l : ForallOrdPairs R l -> ForallOrdPairs R (filter f l).
Proof.
  induction 1 as [|a l Ha H IH]; cbn; [constructor|]. destruct (f a); [|easy]. constructor; [|easy].
  apply Forall_forall. intros b Hb. apply filter_In in Hb as [Hb _]. rewrite Forall_forall in Ha. auto.
Qed.
Lemma partition_FOP D ts : partition D ts -> ForallOrdPairs (fun o o' => forall y, In y o -> ~ In y o') ts.
Proof.
  intros [Hu Hm]. assert (H : forall i j, i < j -> j < length ts -> forall y, In y (nth i ts []) -> ~ In y (nth j ts [])).
  { intros i j Hij Hj y Hi Hj'. destruct (Hm (nth i ts [])) as (_ & _ & Hb); [apply nth_In; lia|]. destruct (Hb y Hi) as [Hy _].
    destruct (Hu y Hy) as (k & _ & Hk). assert (k = i) by (apply Hk; split; [lia|easy]). assert (k = j) by (apply Hk; split; [lia|easy]). lia. }
  clear -H. induction ts as [|o ts IH]; constructor.
  - apply Forall_forall. intros o' Ho'. destruct (In_nth _ _ [] Ho') as (j & Hj & <-). apply (H 0 (S j)); cbn; lia.
  - apply IH. intros i j Hij Hj. apply (H (S i) (S j)); cbn; lia.
Qed.
