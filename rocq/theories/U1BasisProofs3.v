(** Proofs about the bases of symmetric tensors. *)
From Coq Require Import Permutation.
From Verif Require Import Base BaseLemmas Tensor TensorLemmas C4vSpec C4vProofs U1Basis U1BasisSpec U1BasisProofs U1BasisProofs2.
Open Scope list_scope.
Open Scope nat_scope.
Open Scope res_scope.

Section B.
Variable pick : list tup -> option tup.
Hypothesis Hpick : picks pick.
Variables (D n : nat).
Hypothesis Hn : n <= 2.
Variable sel : nat -> list tup -> bool.
Variable ok : nat -> list nat -> Prop.
Hypothesis Hok : forall d o x, d < n -> good D o -> In x o -> (sel d o = true <-> ok d x).

Section Gs.
Variable gs : list (list (list tup)).
Hypothesis Hpart : partition D (concat gs).
Notation L := (pairs n sel gs).
Notation basis := (map (fun p => T D (fst p) (snd p)) L).

Lemma pair_good d o : In (d, o) L -> d < n /\ good D o /\ sel d o = true.
Proof. intros H. apply In_pairs in H as (Hd & Ho & Hs). split; [easy|]. split; [|easy]. exact (proj2 Hpart o Ho). Qed.

Lemma pairs_disjoint : ForallOrdPairs (fun p p' : nat * list tup => fst p = fst p' -> forall y, In y (snd p) -> ~ In y (snd p')) L.
Proof.
  unfold pairs. pose proof (partition_FOP _ _ Hpart) as H.
  assert (Hs : forall m k, ForallOrdPairs (fun p p' : nat * list tup => fst p = fst p' -> forall y, In y (snd p) -> ~ In y (snd p'))
      (flat_map (fun d => map (pair d) (filter (sel d) (concat gs))) (seq k m))); [|apply Hs].
  induction m as [|m IH]; intros k; cbn [seq flat_map]; [constructor|]. apply FOP_app.
  - apply (FOP_map_pair (fun o o' : list tup => forall y, In y o -> ~ In y o')). now apply FOP_filter.
  - apply IH.
  - intros a b Ha Hb E. exfalso. apply in_map_iff in Ha as (o & <- & _). apply in_flat_map in Hb as (d & Hd & Hb).
    apply in_map_iff in Hb as (o' & <- & _). cbn in E. apply in_seq in Hd. lia.
Qed.

Lemma T_value d o s x : In (d, o) L -> s < 2 -> bonds D x -> (bel (T D d o) s x = 1%Z <-> s = d /\ In x o) /\ (bel (T D d o) s x = 0%Z \/ bel (T D d o) s x = 1%Z).
Proof.
  intros _ Hs Hx. rewrite bel_T by easy. destruct (Nat.eqb_spec s d); cbn [andb].
  - destruct (existsb (eqb x) o) eqn:E.
    + apply existsb_In in E. intuition.
    + split; [|now left]. split; [easy|]. intros [_ H]. apply existsb_In in H. congruence.
  - split; [|now left]. split; [easy|]. now intros [? _].
Qed.

Lemma covered s x : s < n -> bonds D x -> ok s x -> exists j, j < length L /\ In x (snd (nth j L (0, []))) /\ fst (nth j L (0, [])) = s.
Proof.
  intros Hs Hx Ho. destruct (proj1 Hpart x Hx) as (k & (Hk & Hin) & _).
  set (o := nth k (concat gs) []) in *. assert (Hoc : In o (concat gs)) by now apply nth_In.
  assert (Hg : good D o) by now apply (proj2 Hpart).
  assert (Hp : In (s, o) L). { apply In_pairs. repeat split; try easy. apply (Hok s o x); easy. }
  destruct (In_nth _ _ (0, []) Hp) as (j & Hj & E). exists j. rewrite E. easy.
Qed.
Lemma unique_pair i j x : i < length L -> j < length L -> fst (nth i L (0, [])) = fst (nth j L (0, [])) ->
  In x (snd (nth i L (0, []))) -> In x (snd (nth j L (0, []))) -> i = j.
Proof.
  intros Hi Hj E H1 H2. destruct (Nat.lt_trichotomy i j) as [H|[H|H]]; [exfalso|easy|exfalso].
  - exact (FOP_nth _ _ (0, []) i j pairs_disjoint H Hj E x H1 H2).
  - exact (FOP_nth _ _ (0, []) j i pairs_disjoint H Hi (eq_sym E) x H2 H1).
Qed.
Lemma nth_basis j : j < length L -> nth j basis (tzeros 0%Z []) = T D (fst (nth j L (0, []))) (snd (nth j L (0, []))).
Proof. intros Hj. rewrite (nth_map_lt _ _ _ _ (0, [])) by easy. easy. Qed.

Lemma basis_ok : is_basis D n ok basis.
Proof.
  split.
  - intros t Ht. apply in_map_iff in Ht as ([d o] & <- & Hp). cbn [fst snd].
    destruct (pair_good d o Hp) as (Hd & Hg & Hs). pose proof Hg as (Hne & _ & Hor).
    split; [apply onsite_T|]. split.
    + intros p' D' E g s x Hgr Hs' Hx. injection E as <- <-. fold (bel (T D d o) s (moved g x)). fold (bel (T D d o) s x).
      change (sgn Z.opp (chi A1 g) (bel (T D d o) s x)) with (bel (T D d o) s x).
      rewrite !bel_T; try easy; [|now apply moved_bonds]. replace (existsb (eqb (moved g x)) o) with (existsb (eqb x) o); [easy|].
      apply Bool.eq_iff_eq_true. rewrite !existsb_In. split; intros Hi.
      * apply (Hor x Hi). now exists g.
      * destruct (Hor _ Hi) as [_ Ho]. apply Ho.
        assert (Hl : length x = 4) by apply Hx.
        assert (Hm : In (moved g x) (images x)) by (apply In_images; [easy|now exists g]).
        destruct (images_sym x _ Hl Hm) as [Hlm Him]. apply In_images; [easy|]. apply Him. now apply images_self.
    + split.
      * intros s x Hs2 Hx. destruct (T_value d o s x Hp Hs2 Hx) as [H1 [H2|H2]]; [now left|]. right. apply H1 in H2 as H3. destruct H3 as [-> Hin].
        repeat split; try easy. now apply (Hok d o x).
      * destruct o as [|x o]; [easy|]. destruct (Hor x (or_introl eq_refl)) as [Hx _]. exists d, x. split; [lia|]. split; [easy|].
        apply (T_value d (x :: o) d x Hp); [lia|easy|]. split; [easy|now left].
  - intros s x Hs Hx Ho. destruct (covered s x Hs Hx Ho) as (j & Hj & Hin & E). exists j. rewrite map_length. split.
    + split; [easy|]. rewrite nth_basis by easy. destruct (nth j L (0, [])) as [d o] eqn:En. cbn [fst snd] in *.
      apply (T_value d o s x); [rewrite <- En; now apply nth_In|lia|easy|easy].
    + intros j' [Hj' Hb]. rewrite nth_basis in Hb by easy.
      destruct (nth j' L (0, [])) as [d o] eqn:En. cbn [fst snd] in *.
      apply (T_value d o s x) in Hb as [-> Hin']; [|rewrite <- En; now apply nth_In|lia|easy].
      apply (unique_pair j j' x); try easy; rewrite En; easy.
Qed.

(** every symmetric tensor is a combination *)
Section Comb.
Context {K : Type} (zero : K) (add : K -> K -> K) (opp : K -> K).
Hypothesis add0l : forall a, add zero a = a.
Hypothesis add0r : forall a, add a zero = a.
Lemma comb_zero (c : list K) (b : list (tensor Z)) s x : (forall t, In t b -> bel t s x <> 1%Z) -> combination zero add c b s x = zero.
Proof.
  unfold combination. revert c. induction b as [|t b IH]; intros c H; [now destruct c|]. destruct c as [|a c]; [easy|].
  cbn [combine fold_right fst snd]. destruct (Z.eqb_spec (bel t s x) 1) as [E|_]; [exfalso; revert E; apply H; now left|].
  rewrite add0l. apply IH. intros t' Ht'. apply H. now right.
Qed.
Lemma comb_one (c : list K) (b : list (tensor Z)) s x j d : length c = length b -> j < length b -> bel (nth j b d) s x = 1%Z ->
  (forall i, i < length b -> bel (nth i b d) s x = 1%Z -> i = j) -> combination zero add c b s x = nth j c zero.
Proof.
  revert c j. induction b as [|t b IH]; intros c j Hc Hj E H; [cbn in Hj; lia|]. destruct c as [|a c]; [easy|].
  unfold combination. cbn [combine fold_right fst snd]. fold (combination zero add c b s x). destruct j as [|j].
  - cbn in E. rewrite E, Z.eqb_refl. cbn [nth]. rewrite comb_zero; [apply add0r|].
    intros t' Ht'. destruct (In_nth _ _ d Ht') as (i & Hi & <-). intros E'. assert (S i = 0) by (apply H; [cbn; lia|easy]). lia.
  - cbn [nth] in *. destruct (Z.eqb_spec (bel t s x) 1) as [E'|_]; [assert (0 = S j) by (apply H; [cbn; lia|easy]); lia|].
    rewrite add0l. apply IH; [cbn in Hc; lia|cbn in Hj; lia|easy|]. intros i Hi Hi'. assert (S i = S j) by (apply H; [cbn; lia|easy]). lia.
Qed.
Lemma complete A : symmetric_tensor zero opp D n ok A ->
  exists c, length c = length basis /\ forall s x, s < 2 -> bonds D x -> el zero A s x = combination zero add c basis s x.
Proof.
  intros (HA & Htr & Hz).
  set (c := map (fun p => match snd p with y :: _ => el zero A (fst p) y | [] => zero end) L).
  exists c. split; [unfold c; now rewrite !map_length|]. intros s x Hs Hx.
  assert (Hdec : (exists j, j < length L /\ fst (nth j L (0, [])) = s /\ In x (snd (nth j L (0, [])))) \/
                 forall j, j < length L -> fst (nth j L (0, [])) = s -> ~ In x (snd (nth j L (0, [])))).
  { generalize L. intros l. induction l as [|[d o] l IH]; [right; cbn; lia|]. destruct IH as [(j & Hj & H1 & H2)|H].
    - left. exists (S j). cbn. split; [lia|easy].
    - destruct (Nat.eq_dec d s) as [->|Hd]; [destruct (in_dec eq_dec x o) as [Hin|Hin]; [left; exists 0; cbn; split; [lia|easy]|]|]; right; intros [|j] Hj; cbn in *; try easy; intros H1; apply H; try easy; lia. }
  destruct Hdec as [(j & Hj & Ej & Hin)|Hno].
  - destruct (nth j L (0, [])) as [d o] eqn:En. cbn [fst snd] in *. subst d.
    assert (Hp : In (s, o) L) by (rewrite <- En; now apply nth_In). destruct (pair_good s o Hp) as (Hd & Hg & _).
    rewrite (comb_one c basis s x j (tzeros 0%Z [])).
    + unfold c. rewrite (nth_map_lt _ _ _ _ (0, [])) by easy. rewrite En. cbn [fst snd].
      destruct Hg as (Hne & _ & Hor). destruct o as [|y o]; [easy|]. destruct (Hor y (or_introl eq_refl)) as [Hy Ho].
      apply Ho in Hin as (g & Hgr & ->). destruct HA as [_ HA]. rewrite (Htr 2 D HA g s y); try easy.
    + unfold c. now rewrite !map_length.
    + now rewrite map_length.
    + rewrite nth_basis by easy. rewrite En. now apply (T_value s o s x).
    + intros i Hi Hb. rewrite map_length in Hi. rewrite nth_basis in Hb by easy. destruct (nth i L (0, [])) as [d' o'] eqn:En'. cbn [fst snd] in Hb.
      apply (T_value d' o' s x) in Hb as [<- Hin']; [|rewrite <- En'; now apply nth_In|easy|easy].
      apply (unique_pair i j x); try easy; rewrite ?En, ?En'; easy.
  - rewrite comb_zero.
    + apply Hz; try easy. intros [Hsn Ho]. destruct (covered s x Hsn Hx Ho) as (j & Hj & Hin & E). now apply (Hno j).
    + intros t Ht E. apply in_map_iff in Ht as ([d o] & <- & Hp). cbn [fst snd] in E.
      apply (T_value d o s x Hp Hs Hx) in E as [<- Hin]. destruct (In_nth _ _ (0, []) Hp) as (j & Hj & En). apply (Hno j Hj); now rewrite En.
Qed.
(** and the coefficients are determined by the tensor *)
Lemma coefficients_unique (c c' : list K) : length c = length basis -> length c' = length basis ->
  (forall s x, s < 2 -> bonds D x -> combination zero add c basis s x = combination zero add c' basis s x) -> c = c'.
Proof.
  intros Hc Hc' H. apply (nth_ext c c' zero zero); [congruence|]. intros j Hj. rewrite Hc in Hj.
  destruct basis_ok as [H1 H2]. assert (Hin : In (nth j basis (tzeros 0%Z [])) basis) by now apply nth_In.
  destruct (H1 _ Hin) as (_ & _ & H3 & s & x & Hs & Hx & E).
  destruct (H3 s x Hs Hx) as [E0|(_ & Hsn & Ho)]; [congruence|].
  destruct (H2 s x Hsn Hx Ho) as (j' & _ & Hu).
  assert (Hi : forall i, i < length basis -> bel (nth i basis (tzeros 0%Z [])) s x = 1%Z -> i = j).
  { intros i Hi Ei. rewrite <- (Hu i) by easy. apply Hu. easy. }
  rewrite <- (comb_one c basis s x j (tzeros 0%Z [])), <- (comb_one c' basis s x j (tzeros 0%Z [])); try easy. now apply H.
Qed.
End Comb.
End Gs.
End B.

(** ** get_basis_upto_D without a filter *)
Lemma basis_nofilter pick D n : picks pick -> n <= 2 ->
  exists b, get_basis_upto_D pick D n None = Ok b /\ is_basis D n (fun _ _ => True) b.
Proof.
  intros Hp Hn. destruct (basis_list pick D n Hn (fun _ _ => true) None) as (gs & E & Hg & Eb); [easy|].
  destruct (gen_upto_partition D) as (gs' & E' & Hpart & _). assert (gs' = gs) by congruence. subst gs'.
  rewrite Eb. eexists. split; [reflexivity|]. rewrite cells_pairs. apply basis_ok; easy.
Qed.

(** ** with the U(1) filter *)
Definition sel_u1 (pick : list tup -> option tup) (n : nat) (cs : list Z) (tot : Z) (d : nat) (o : list tup) : bool :=
  match pick o with Some y => (charge n cs d y =? tot)%Z | None => false end.
Lemma u1_list pick D n cs tot : picks pick -> n <= 2 -> length cs = n + D ->
  exists gs, partition D (concat gs) /\
    get_basis_upto_D pick D n (Some (u1_filter cs tot n)) = Ok (map (fun p => T D (fst p) (snd p)) (pairs n (sel_u1 pick n cs tot) gs)) /\
    (forall d o x, d < n -> good D o -> In x o -> (sel_u1 pick n cs tot d o = true <-> allowed n cs tot d x)).
Proof.
  intros Hp Hn Hl.
  destruct (basis_list pick D n Hn (sel_u1 pick n cs tot) (Some (u1_filter cs tot n))) as (gs & E & Hg & Eb).
  - intros d o Hd Ho Hne. destruct (Hp o Hne) as (y & Ey & Hy). unfold sel_u1. rewrite Ey. apply filter_ok; [lia|].
    destruct (Ho y Hy) as [[_ Hb] _]. eapply Forall_impl; [|exact Hb]. cbn. intros. lia.
  - destruct (gen_upto_partition D) as (gs' & E' & Hpart & _). assert (gs' = gs) by congruence. subst gs'.
    exists gs. split; [easy|]. rewrite Eb, cells_pairs. split; [easy|].
    intros d o x Hd (Hne & _ & Ho) Hx. unfold sel_u1, allowed. destruct (Hp o Hne) as (y & Ey & Hy). rewrite Ey, Z.eqb_eq.
    destruct (Ho y Hy) as [[Hly _] Hor]. apply Hor in Hx. apply (In_images y x Hly) in Hx. now rewrite (charge_perm n cs d y x (images_perm _ _ Hly Hx)).
Qed.
Lemma basis_u1 pick D n cs tot : picks pick -> n <= 2 -> length cs = n + D ->
  exists b, get_basis_upto_D pick D n (Some (u1_filter cs tot n)) = Ok b /\ is_basis D n (allowed n cs tot) b.
Proof.
  intros Hp Hn Hl. destruct (u1_list pick D n cs tot Hp Hn Hl) as (gs & Hpart & E & Hs). rewrite E.
  eexists. split; [reflexivity|]. now apply basis_ok.
Qed.
Lemma basis_u1_complete {K} (zero : K) add opp pick D n cs tot : (forall a, add zero a = a) -> (forall a, add a zero = a) ->
  picks pick -> n <= 2 -> length cs = n + D -> forall b, get_basis_upto_D pick D n (Some (u1_filter cs tot n)) = Ok b ->
  forall A, symmetric_tensor zero opp D n (allowed n cs tot) A ->
  exists! c, length c = length b /\ forall s x, s < 2 -> bonds D x -> el zero A s x = combination zero add c b s x.
Proof.
  intros H0 H1 Hp Hn Hl b Eb A HA. destruct (u1_list pick D n cs tot Hp Hn Hl) as (gs & Hpart & E & Hs).
  rewrite E in Eb. injection Eb as <-.
  destruct (complete D n Hn _ _ Hs gs Hpart zero add opp H0 H1 A HA) as (c & Hc & Hv). exists c. split; [easy|].
  intros c' [Hc' Hv']. apply (coefficients_unique D n Hn _ _ Hs gs Hpart zero add H0 H1); try easy.
  intros s x Hs2 Hx. now rewrite <- Hv, <- Hv'.
Qed.
Lemma generate_ok pick D n cs tot : picks pick -> n <= 2 -> length cs = n + D ->
  (exists b, generate_a_basis pick n D cs tot = Ok b /\ is_basis D n (allowed n cs tot) b) \/
  (generate_a_basis pick n D cs tot = Err AssertionError /\ forall s x, s < n -> bonds D x -> ~ allowed n cs tot s x).
Proof.
  intros Hp Hn Hl. unfold generate_a_basis. rewrite Hl, Nat.eqb_refl.
  destruct (basis_u1 pick D n cs tot Hp Hn Hl) as (b & E & Hb). rewrite E. cbn [bind].
  destruct b as [|t b]; cbn [length Nat.eqb negb py_assert bind].
  - right. split; [easy|]. intros s x Hs Hx Ha. destruct Hb as [_ Hb]. destruct (Hb s x Hs Hx Ha) as (j & [Hj _] & _). cbn in Hj. lia.
  - left. eexists. split; [reflexivity|easy].
Qed.
Lemma generate_wrong_length pick D n cs tot : length cs <> n + D -> generate_a_basis pick n D cs tot = Err RuntimeError.
Proof. intros H. unfold generate_a_basis. apply Nat.eqb_neq in H. now rewrite H. Qed.

(** ** more than two physical values *)
Lemma physical_dim pick D n : 0 < D -> 2 < n -> get_basis_upto_D pick D n None = Err IndexError.
Proof.
  intros HD Hn. unfold get_basis_upto_D. destruct (upto_ok D) as (gs & -> & Hl & Hg). cbn [bind].
  destruct gs as [|g gs]; [cbn in Hl; lia|]. cbn [foldM].
  match goal with |- context [foldM ?f (seq 0 n) ?s] => set (st := f); assert (E : foldM st (seq 0 n) s = Err IndexError) end; [|rewrite E; easy].
  pose proof (gen_t_members 1 _ ltac:(lia) (Hg 0 HD)) as Hm. cbn [nth] in Hm.
  destruct (gen_t_covers 1 _ [0; 0; 0; 0] ltac:(lia) (Hg 0 HD) eq_refl eq_refl) as (o & Ho & _). cbn [nth] in Ho.
  destruct g as [|o' g]; [easy|]. clear Ho o.
  destruct n as [|[|[|n]]]; try lia. cbn [seq foldM].
  assert (Hf : forall d b, d < 2 -> exists b', st b d = Ok b').
  { intros d b Hd. unfold st. cbn [bind].
    assert (Ht : exists ts, mapM (basis_tensor D d) (o' :: g) = Ok ts); [|destruct Ht as (ts & ->); cbn; eauto].
    assert (HF : Forall (fun o => Forall (bonds D) o) (o' :: g)).
    { apply Forall_forall. intros o Ho. apply Forall_forall. intros x Hx. destruct (Hm o Ho) as (_ & _ & H). destruct (H x Hx) as (H1 & H2 & _). apply max_lt; [easy|lia]. }
    clear -HF Hd. induction HF as [|o l Ho HF IH]; [now exists []|]. destruct IH as (ts & IH). cbn [mapM]. rewrite basis_tensor_ok by (easy || lia).
    cbn [bind]. rewrite IH. cbn. eauto. }
  destruct (Hf 0 (repeat [] (S (S (S n)))) ltac:(lia)) as (b0 & ->). cbn [bind].
  destruct (Hf 1 b0 ltac:(lia)) as (b1 & ->). cbn [bind].
  assert (E2 : st b1 2 = Err IndexError); [|now rewrite E2].
  unfold st. cbn [bind mapM]. destruct (Hm o' (or_introl eq_refl)) as (_ & Hne & _). destruct o' as [|x o']; [easy|].
  rewrite basis_tensor_err by lia. easy.
Qed.

(** ** examples *)
Definition first_of (o : list tup) : option tup := match o with x :: _ => Some x | [] => None end.
Lemma first_picks : picks first_of.
Proof. intros [|x o] H; [easy|]. exists x. split; [easy|now left]. Qed.
Example orbit_examples :
  gen_c4v_symm_A1 [0; 1; 2; 1] = Ok [[0; 1; 2; 1]; [2; 1; 0; 1]; [1; 0; 1; 2]; [1; 2; 1; 0]] /\
  match gen_c4v_symm_A1 [0; 0; 1; 2] with Ok o => length o | Err _ => 0 end = 8 /\
  gen_c4v_symm_A1 [3; 3; 3; 3] = Ok [[3; 3; 3; 3]].
Proof. vm_compute. repeat split; reflexivity. Qed.
Example orbit_sizes :
  match gen_upto_D 2 with Ok gs => map (map (@length tup)) gs | Err _ => [] end = [[1]; [4; 4; 2; 4; 1]].
Proof. vm_compute. reflexivity. Qed.
Example basis_size : match generate_a_basis first_of 2 2 [1; -1; 0; 1]%Z 1%Z with Ok b => length b | Err _ => 0 end = 3.
Proof. vm_compute. reflexivity. Qed.
