(** The transfer operators of the C4v state, and those without a row of sites. *)
From Coq Require Import Reals Lra.
From Verif Require Import Base BaseLemmas Lattice Tensor TensorLemmas Net NetSpec NetProofs NetProofs2 NetProofs3 Corners CornersSpec CornersProofs Rdm RdmSpec RdmProofs Corr CorrSpec CorrC4v CorrC4vSpec CorrProofs CorrProofs2 CorrProofs3 CorrProofs4 CorrProofs5 CorrC4vProofs4 CorrC4vProofs5 Transfer TransferSpec TransferProofs TransferProofs2.
From Verif Require Ctm.
From Coq Require Import Ring ArithRing Field Permutation Lia.
Open Scope list_scope.
Open Scope nat_scope.
Open Scope res_scope.

(** the values are reversed, whatever their order was *)
Lemma reversed_ok {W} (vals : list cplx) (vecs : list W) n : n <> 0 -> length vals = n ->
  reversed_spec n (vals, vecs) = Ok (map (over (modulus (last vals (0, 0)%R))) (rev vals)).
Proof. intros H0 Hl. unfold reversed_spec, to_rows. cbn [fst].
  destruct vals as [|v0 vals'] using rev_ind; [cbn in Hl; congruence|]. rewrite rev_app_distr. cbn [rev app at_index nth_error bind]. rewrite last_last.
  rewrite map_length. cbn [length]. rewrite rev_length. rewrite app_length in Hl. cbn [length] in Hl. replace (S (length vals') =? n) with true by (symmetry; apply Nat.eqb_eq; lia).
  f_equal. apply map_ext. intros v. apply scale_over. Qed.
Lemma nth_last_ {A} (l : list A) d : nth (length l - 1) l d = last l d.
Proof. induction l as [|x l IH] using rev_ind; [reflexivity|]. rewrite last_last, app_length. cbn [length]. replace (length l + 1 - 1) with (length l) by lia. rewrite app_nth2 by lia. now rewrite Nat.sub_diag. Qed.
(** they are sorted if they came in ascending order *)
Lemma reversed_sorted (vals : list (R * R)) : vals <> [] -> ascending vals -> modulus (last vals (0, 0)%R) <> 0%R ->
  leading (modulus (last vals (0, 0)%R)) vals /\ sorted_values (modulus (last vals (0, 0)%R)) vals (map (over (modulus (last vals (0, 0)%R))) (rev vals)).
Proof. intros HE HA H0. set (m := modulus (last vals (0, 0)%R)) in *. assert (HL : 0 < length vals) by (destruct vals; [congruence|cbn; lia]).
  assert (Hm : (0 < m)%R) by (destruct (modulus_nonneg (last vals (0, 0)%R)) as [H|H]; [exact H|unfold m in H0; congruence]). split; [split|split].
  - exists (last vals (0, 0)%R). split; [|reflexivity]. rewrite <- nth_last_. apply nth_In. lia.
  - intros v Hv. destruct (In_nth _ _ (0, 0)%R Hv) as (k & Hk & <-). unfold m. rewrite <- nth_last_. apply HA. lia.
  - intros i j. rewrite map_length, rev_length. intros Hij. rewrite !(nth_map' (over m) (rev vals) (0, 0)%R (0, 0)%R) by (rewrite rev_length; lia). rewrite !modulus_over by exact Hm.
    unfold Rdiv. apply Rmult_le_compat_r; [left; now apply Rinv_0_lt_compat|]. rewrite !rev_nth by lia. apply HA. lia.
  - apply Permutation_map. symmetry. apply Permutation_rev. Qed.

Section C4v.
Context {K : Type} (z o : K) (add mul : K -> K -> K) (cj : K -> K) (sub : K -> K -> K) (opp : K -> K) (div : K -> K -> K) (inv : K -> K).
Hypothesis FT : field_theory z o add mul sub opp div inv eq.
Notation ten := (tensor K).
Notation network := (@network K).
Variables (svd : ten -> res (ten * list K * ten)) (T a : ten) (chi p ad : nat).
Hypothesis (HT : tdims T = [chi; chi; ad * ad]) (Ha : tdims a = [p; ad; ad; ad; ad]).
Section D.
Variable D : nat -> nat.
Notation isc := (is_contraction D z o add mul).
Notation good h := (good z o add mul D h).
Notation grows h := (grows z o add mul D h).
Definition cdims (h : nat) : list nat := chi :: repeat (ad * ad) h ++ [chi].
Lemma column_dims h b : h = 1 \/ h = 2 -> fits D (column cj T a h b false) ->
  map (ldim D) (rims h b) = cdims h /\ map (ldim D) (rims h (b + 32)) = cdims h.
Proof. intros [-> | ->] HF; unfold column in HF; cbn [flat_map seq app] in HF;
  repeat (apply Forall_cons_iff in HF; let X := fresh "X" in destruct HF as [[_ X] HF]; cbn [fst snd map ldim tmap tdims FF] in X; rewrite ?HT, ?Ha in X);
  unfold rims, cdims, FF; cbn [map ldim seq app repeat]; repeat match goal with H : _ :: _ = _ :: _ |- _ => injection H; clear H; intros end;
  split; repeat (f_equal; [congruence|]); try reflexivity; congruence. Qed.
Lemma good_cvec h x : length x = prod_dims (map (ldim D) (rims h (at_col 0))) -> good h 0 [(mkT (map (ldim D) (rims h (at_col 0))) x, rims h (at_col 0))] (mkT (map (ldim D) (rims h (at_col 0))) x).
Proof. intros H. split; [apply (isc_leaf z o add mul (SR_of_field FT)); [exact H|reflexivity]|]. unfold below, nvars. cbn [flat_map snd]. rewrite app_nil_r. split; [intros q Hq; now right|apply incl_refl]. Qed.
Lemma iterate_c4v h f k : h = 1 \/ h = 2 -> grows h f (CorrC4vProofs5.X cj T a h) 1 -> 1 <= k -> fits D (channel_c4v cj T a h k) ->
  applies D z o add mul (iterate k (matvec (cdims h) f)) (rims h (at_col 0)) (channel_c4v cj T a h k) (rims h (at_col k)).
Proof. intros Hh HG Hk HF x Hx.
  assert (HD : forall i, i <= k -> map (ldim D) (rims h (at_col i)) = cdims h).
  { intros i Hi. assert (HC : forall j, j < k -> fits D (column cj T a h (at_col j) false)).
    { intros j Hj. unfold fits in *. rewrite Forall_forall in *. intros y Hy. apply HF. unfold channel_c4v. apply in_flat_map. exists j. split; [apply in_seq; lia|exact Hy]. }
    destruct (Nat.eq_dec i k) as [-> |Hne].
    - destruct k as [|k']; [lia|]. rewrite at_S. apply (column_dims h _ Hh (HC k' ltac:(lia))).
    - apply (column_dims h _ Hh (HC i ltac:(lia))). }
  assert (X : exists M, iterate k (matvec (cdims h) f) x = Ok (tdata M) /\ good h k ((mkT (map (ldim D) (rims h (at_col 0))) x, rims h (at_col 0)) :: channel_c4v cj T a h k) M).
  { clear Hk. induction k as [|k IH].
    - eexists. split; [|exact (good_cvec h x Hx)]. reflexivity.
    - unfold channel_c4v in HF. rewrite seq_S, flat_map_app in HF. apply fits_app in HF. destruct HF as [F1 F2]. cbn [flat_map Nat.add] in F2. rewrite app_nil_r in F2.
      destruct IH as (M & EM & GM); [exact F1|intros i Hi; apply HD; lia|].
      destruct (HG k _ M GM F2) as (M' & EM' & GM'). rewrite Nat.add_1_r in GM'. exists M'. split.
      + cbn [iterate]. rewrite EM. cbn [bind]. destruct (holds_fits z o add mul D _ _ _ _ GM) as [W1 E1]. destruct (holds_fits z o add mul D _ _ _ _ GM') as [W2 E2].
        apply (matvec_of (cdims h) _ M M'); [exact W1| |exact EM'|exact W2|].
        * rewrite E1. apply HD. lia.
        * rewrite E2. apply HD. lia.
      + unfold channel_c4v. rewrite seq_S, flat_map_app. cbn [flat_map Nat.add]. rewrite app_nil_r. exact GM'. }
  destruct X as (M & EM & [GM _]). exists M. split; [exact EM|exact GM]. Qed.
Lemma dims_c4v h k : h = 1 \/ h = 2 -> 1 <= k -> fits D (channel_c4v cj T a h k) -> map (ldim D) (rims h (at_col 0)) = cdims h.
Proof. intros Hh Hk HF. destruct k as [|k]; [lia|]. unfold channel_c4v in HF. cbn [seq flat_map] in HF. apply fits_app in HF. destruct HF as [HF _]. now apply (column_dims h _ Hh HF). Qed.
End D.

Notation Top eigs argsort := (get_Top_spec_c4v z o add mul cj eigs argsort chi T a).
Notation Top2 eigs := (get_Top2_spec_c4v z o add mul cj eigs chi T a svd).
Lemma ad_eq : size a 1 = ad.
Proof. unfold size. rewrite Ha. reflexivity. Qed.
Lemma Top_c4v_ok : exists m mv,
  (forall D k, 1 <= k -> fits D (channel_c4v cj T a 1 k) ->
    m = prod_dims (map (ldim D) (rims 1 (at_col 0))) /\
    applies D z o add mul (iterate k mv) (rims 1 (at_col 0)) (channel_c4v cj T a 1 k) (rims 1 (at_col k))) /\
  forall W (eigs : eigen_solver K W) argsort n nz ev, is_argsort argsort ->
  (forall err, eigs ev m mv n = Err err -> Top eigs argsort n nz ev = Err err) /\
  (forall vals vecs top, eigs ev m mv n = Ok (vals, vecs) -> n <> 0 -> length vals = n -> (ev = true -> length vecs = n) -> leading top vals -> top <> 0%R ->
    let unit := if nz then top else 1%R in
    exists L X, Top eigs argsort n nz ev = Ok (L, X) /\ sorted_values unit vals L /\ (nz = true -> modulus (nth 0 L (0, 0)%R) = 1%R) /\
    if ev then sorted_pairs unit vals vecs L X else X = []).
Proof. exists (chi * ad * ad * chi), (matvec (cdims 1) (tm1 z o add mul cj T a None)). split.
  - intros D k Hk HF. split.
    + rewrite (dims_c4v D 1 k (or_introl eq_refl) Hk HF). unfold cdims. cbn [repeat app prod_dims fold_right]. lia.
    + apply (iterate_c4v D 1 _ k (or_introl eq_refl)); [|exact Hk|exact HF]. apply (grow_none1 z o add mul cj sub opp div inv FT).
  - intros W eigs argsort n nz ev HA. unfold get_Top_spec_c4v. rewrite ad_eq. fold (cdims 1). split.
    + intros err E. unfold cdims in E. cbn [repeat app] in E. rewrite E. reflexivity.
    + intros vals vecs top E H0 Hl Hv Hm Hm0. unfold cdims in E. cbn [repeat app] in E. rewrite E. cbn [bind].
      destruct (sorted_spec_ok argsort HA vals vecs n top Hl Hm Hm0 nz ev H0 Hv) as (L & X & X1 & X2 & X3 & X4).
      exists L, X. split; [exact X1|]. split; [exact X2|]. split; [exact X4|exact X3]. Qed.
Lemma Top2_c4v_ok : exists m mv,
  (forall D k, 1 <= k -> fits D (channel_c4v cj T a 2 k) ->
    m = prod_dims (map (ldim D) (rims 2 (at_col 0))) /\
    applies D z o add mul (iterate k mv) (rims 2 (at_col 0)) (channel_c4v cj T a 2 k) (rims 2 (at_col k))) /\
  forall W (eigs : eigen_solver K W) n,
  (forall err, eigs false m mv n = Err err -> Top2 eigs n = Err err) /\
  (forall vals vecs, eigs false m mv n = Ok (vals, vecs) -> n <> 0 -> length vals = n ->
    exists L, Top2 eigs n = Ok L /\ L = map (over (modulus (last vals (0, 0)%R))) (rev vals) /\
    (ascending vals -> modulus (last vals (0, 0)%R) <> 0%R -> exists top, leading top vals /\ sorted_values top vals L)).
Proof. exists (chi * ad ^ 4 * chi), (matvec (cdims 2) (tm1_2 z o add mul cj T a svd None)). split.
  - intros D k Hk HF. split.
    + rewrite (dims_c4v D 2 k (or_intror eq_refl) Hk HF). unfold cdims. cbn [repeat app prod_dims fold_right Nat.pow]. lia.
    + apply (iterate_c4v D 2 _ k (or_intror eq_refl)); [|exact Hk|exact HF]. apply (grow_none12 z o add mul cj sub opp div inv FT).
  - intros W eigs n. unfold get_Top2_spec_c4v. rewrite ad_eq. split.
    + intros err E. unfold cdims in E. cbn [repeat app] in E. rewrite E. reflexivity.
    + intros vals vecs E H0 Hl. unfold cdims in E. cbn [repeat app] in E. rewrite E. cbn [bind]. eexists. split; [now apply reversed_ok|]. split; [reflexivity|].
      intros HA Hm. exists (modulus (last vals (0, 0)%R)). apply reversed_sorted; [|exact HA|exact Hm]. destruct vals; [cbn in Hl; congruence|discriminate]. Qed.
End C4v.

(** ** channels without sites *)
Section Seam.
Context {K : Type} (z o : K) (add mul : K -> K -> K) (cj : K -> K).
Hypothesis SR : semi_ring_theory z o add mul eq.
Notation ten := (tensor K).
Notation network := (@network K).
Variables (st : ipeps ten) (e : Ctm.envt ten) (As : coord -> ten) (Cs Ts : coord -> coord -> ten).
Hypothesis HS : sees st e As Cs Ts.
Hypothesis HN : reduces st.
Notation TM0 := (apply_TM_0sO z o add mul st e).
Notation snet := (seam_net Ts).
Lemma TM0_eq d v E : TM0 v (dvec d) E =
  match d with
  | Up | Down => x <- tensordot z o add mul (Ts v (-1, 0)%Z) E [1] [0] ;; tensordot z o add mul x (Ts (cadd v (-1, 0)%Z) (1, 0)%Z) [1;2] [1;2]
  | Left | Right => x <- tensordot z o add mul (Ts v (0, -1)%Z) E [2] [0] ;; tensordot z o add mul x (Ts (cadd v (0, -1)%Z) (0, 1)%Z) [1;2] [0;2]
  end.
Proof. destruct (HS v) as (k & Hk & Hkk & _ & _ & HT). 
  assert (H1 := HT (0, -1)%Z ltac:(cbn; tauto)). assert (H4 := HT (-1, 0)%Z ltac:(cbn; tauto)).
  destruct (HS (cadd v (-1, 0)%Z)) as (k1 & Hk1 & _ & _ & _ & HT1). assert (A1 := HT1 (1, 0)%Z ltac:(cbn; tauto)).
  destruct (HS (cadd v (0, -1)%Z)) as (k2 & Hk2 & _ & _ & _ & HT2). assert (A2 := HT2 (0, 1)%Z ltac:(cbn; tauto)).
  unfold apply_TM_0sO. replace (is_dir (dvec d)) with true by (destruct d; reflexivity). cbn [py_assert bind]. rewrite Hk. cbn [bind].
  unfold d_up, d_left, d_down, d_right. rewrite !(HN v k _ Hk), Hk1, Hk2, H1, H4. cbn [bind]. rewrite A1, A2. destruct d; reflexivity. Qed.
Lemma TM0_same v v' d E : i_v2s st v = i_v2s st v' -> TM0 v d E = TM0 v' d E.
Proof. intros H. unfold apply_TM_0sO. now rewrite H. Qed.
Lemma seam_left D T1 T2 (E : ten) : fits D [(E, rim0 0); (T1, [V 16; V 4; V 0]); (T2, [V 4; V 19; V 3])] ->
  exists M, (x <- tensordot z o add mul T1 E [2] [0] ;; tensordot z o add mul x T2 [1;2] [0;2]) = Ok M /\ is_contraction D z o add mul [(E, rim0 0); (T1, [V 16; V 4; V 0]); (T2, [V 4; V 19; V 3])] (rim0 16) M.
Proof. intros HF. expand_net HF; leaves SR HF; (singleE SR; [step ltac:(cdot SR); cdot SR|check|reflexivity]). Qed.
Lemma seam_up D T1 T2 (E : ten) : fits D [(E, rim0 0); (T1, [V 16; V 0; V 4]); (T2, [V 19; V 4; V 3])] ->
  exists M, (x <- tensordot z o add mul T1 E [1] [0] ;; tensordot z o add mul x T2 [1;2] [1;2]) = Ok M /\ is_contraction D z o add mul [(E, rim0 0); (T1, [V 16; V 0; V 4]); (T2, [V 19; V 4; V 3])] (rim0 16) M.
Proof. intros HF. expand_net HF; leaves SR HF; (singleE SR; [step ltac:(cdot SR); cdot SR|check|reflexivity]). Qed.
Lemma tm0 D d v E : d = Left \/ d = Up -> fits D ((E, rim0 0) :: snet d v 0) ->
  exists M, TM0 v (dvec d) E = Ok M /\ is_contraction D z o add mul ((E, rim0 0) :: snet d v 0) (rim0 16) M.
Proof. intros [-> | ->] HF; rewrite TM0_eq; [exact (seam_left D _ _ E HF)|exact (seam_up D _ _ E HF)]. Qed.
Lemma seam_sh d v b k : rnet (sh b) (snet d v k) = snet d v (b + k).
Proof. destruct d; unfold seam_net, rnet, sh; cbn [map fst snd rleg]; rewrite !Nat.add_assoc; reflexivity. Qed.
Lemma rim0_sh b k : map (rleg (sh b)) (rim0 k) = rim0 (b + k).
Proof. unfold rim0, sh. cbn [map rleg]. now rewrite Nat.add_assoc. Qed.
Lemma seam_low d v b l : In l (nvars (snet d v b)) -> b <= l /\ (l < b + 16 \/ In l (flat_map bonds (rim0 (b + 16)))).
Proof. destruct d; cbn; intros H; repeat (destruct H as [<-|H]; [split; [lia|]; first [left; lia|right; lia] |]); contradiction H. Qed.
Lemma rim0_low b l : In l (flat_map bonds (rim0 b)) -> b <= l < b + 16.
Proof. cbn. lia. Qed.
Lemma seam_rim d v b : incl (flat_map bonds (rim0 (b + 16))) (nvars (snet d v b)).
Proof. intros l Hl. destruct d; cbn in *; lia. Qed.
Section D.
Variable D : nat -> nat.
Notation isc := (is_contraction D z o add mul).
Notation good n := (holds z o add mul D (base n) (rim0 (base n))).
Lemma grow0 d v n N E : d = Left \/ d = Up -> good n N E -> fits D (snet d v (base n)) ->
  exists M, TM0 v (dvec d) E = Ok M /\ good (S n) (N ++ snet d v (base n)) M.
Proof. intros Hd HG HF. 
  assert (X := at_b z o add mul SR D _ (base n) _ _ (tm0 (Df D (sh (base n))) d v E Hd)).
  rewrite ren_cons, !rim0_sh, seam_sh, Nat.add_0_r in X. destruct X as (M & EM & HM).
  { apply fits_cons. split; [exact (holds_fits z o add mul D _ _ _ _ HG)|exact HF]. }
  exists M. split; [exact EM|]. rewrite base_S. eapply (holds_join z o add mul SR D); [exact HG|exact HM| | | | |lia].
  - intros l Hl. now apply seam_low in Hl.
  - intros l Hl. apply rim0_low in Hl. lia.
  - intros l Hl. unfold nvars in Hl. cbn [flat_map snd] in Hl. apply in_app_iff in Hl. destruct Hl as [Hl|Hl].
    + left. apply rim0_low in Hl. lia.
    + apply seam_low in Hl. tauto.
  - apply seam_rim. Qed.
Lemma steps_grow0 d c n : d = Left \/ d = Up -> forall j i N E, good i N E ->
  (forall t, t < n -> i_v2s st (along c d (j + t)) = i_v2s st (along c d (i + t))) ->
  fits D (flat_map (fun t => snet d (along c d t) (base t)) (seq i n)) ->
  exists M, steps (fun v V => TM0 v (dvec d) V) (dvec d) n (along c d j) E = Ok M /\
    good (i + n) (N ++ flat_map (fun t => snet d (along c d t) (base t)) (seq i n)) M.
Proof. intros Hd. induction n as [|n IH]; intros j i N E HG HR HF.
  - exists E. split; [reflexivity|]. cbn [seq flat_map]. now rewrite app_nil_r, Nat.add_0_r.
  - cbn [seq flat_map] in *. apply fits_app in HF. destruct HF as [F1 F2].
    destruct (grow0 d (along c d i) i N E Hd HG F1) as (M & EM & GM).
    destruct (IH (S j) (S i) _ M GM) as (M' & EM' & GM').
    + intros t Ht. assert (X := HR (S t) ltac:(lia)). now rewrite !Nat.add_succ_r in X.
    + exact F2.
    + exists M'. split.
      * cbn [steps]. assert (X := HR 0 ltac:(lia)). rewrite !Nat.add_0_r in X. rewrite (TM0_same _ _ (dvec d) E X), EM. cbn [bind]. exact EM'.
      * rewrite Nat.add_succ_r. rewrite app_assoc. exact GM'. Qed.
Definition r0dims (n : nat) : list nat := map (ldim D) (rim0 (base n)).
Lemma r0dims_same n k : same_rims D n -> r0dims (k * n) = r0dims 0.
Proof. intros H. unfold r0dims, rim0. cbn [map ldim]. assert (H0 := H k 0 ltac:(lia)). rewrite !Nat.add_0_r in H0. rewrite H0. now rewrite !H by lia. Qed.
Lemma good_vec0 i x : length x = prod_dims (r0dims i) -> good i [(mkT (r0dims i) x, rim0 (base i))] (mkT (r0dims i) x).
Proof. intros H. split; [apply (isc_leaf z o add mul SR); [exact H|reflexivity]|]. unfold below, nvars. cbn [flat_map snd]. rewrite app_nil_r. split; [intros q Hq; now right|apply incl_refl]. Qed.
Notation mvop d c n := (matvec (r0dims 0) (steps (fun v V => TM0 v (dvec d) V) (dvec d) n c)).
Lemma iterate_ok0 d c n k x : d = Left \/ d = Up -> same_rims D n -> (2 <= k -> repeats st c d n) -> fits D (seam Ts d c (k * n)) ->
  length x = prod_dims (r0dims 0) ->
  exists M, iterate k (mvop d c n) x = Ok (tdata M) /\ good (k * n) ((mkT (r0dims 0) x, rim0 (base 0)) :: seam Ts d c (k * n)) M.
Proof. intros Hd HR HP. induction k as [|k IH]; intros HF Hx.
  - exists (mkT (r0dims 0) x). split; [reflexivity|]. cbn [Nat.mul]. exact (good_vec0 0 x Hx).
  - assert (EN : S k * n = k * n + n) by lia. rewrite EN in *. unfold seam in HF. rewrite seq_app, flat_map_app in HF. apply fits_app in HF. destruct HF as [F1 F2]. cbn [Nat.add] in F2.
    destruct IH as (M & EM & GM); [intros Hk; apply HP; lia|exact F1|exact Hx|].
    destruct (steps_grow0 d c n Hd 0 (k * n) _ M GM) as (M' & EM' & GM').
    + intros t Ht. cbn [Nat.add]. destruct k as [|k']; [reflexivity|]. assert (HP' := HP ltac:(lia)). clear -HP'. generalize (S k') as q. induction q as [|q IHq]; [reflexivity|].
      rewrite IHq. rewrite <- HP'. f_equal. f_equal. lia.
    + exact F2.
    + exists M'. split.
      * cbn [iterate]. rewrite EM. cbn [bind]. destruct (holds_fits z o add mul D _ _ _ _ GM) as [W1 E1]. destruct (holds_fits z o add mul D _ _ _ _ GM') as [W2 E2].
        apply (matvec_of (r0dims 0) _ M M'); [exact W1| |exact EM'|exact W2|].
        -- rewrite E1. now apply r0dims_same.
        -- rewrite E2. replace (k * n + n) with (S k * n) by lia. now apply r0dims_same.
      * unfold seam. rewrite seq_app, flat_map_app. exact GM'. Qed.
End D.
Notation Top0 eigs argsort := (get_Top_w0_spec z o add mul eigs argsort st e).
(** the second bond dimension is read off the environment tensor of the vertex itself *)
Lemma Top0_eq {W} (eigs : eigen_solver K W) argsort n c d : Top0 eigs argsort n c (dvec d) =
  (r <- eigs false (chi1_of Ts d c * chi2_of Ts d c) (matvec [chi1_of Ts d c; chi2_of Ts d c] (steps (fun v V => TM0 v (dvec d) V) (dvec d) (cell_length st d) c)) n ;;
   ' (L, _) <- sorted_spec argsort n true false r ;; Ok L).
Proof. unfold get_Top_w0_spec. rewrite (get_chis_eq z cj st e As Cs Ts HS). cbn [bind]. rewrite unit_length_eq. reflexivity. Qed.
Lemma Top0_ok c d : d = Left \/ d = Up -> exists m mv,
  (forall D k, let N := cell_length st d in 1 <= N -> 1 <= k -> same_rims D N -> (2 <= k -> repeats st c d N) ->
    fits D (seam Ts d c (k * N)) -> nth 2 (tdims (Ts c (cneg (seam_side d)))) 0 = D (base 0 + 3) ->
    m = prod_dims (map (ldim D) (rim0 (base 0))) /\
    applies D z o add mul (iterate k mv) (rim0 (base 0)) (seam Ts d c (k * N)) (rim0 (base (k * N)))) /\
  forall W (eigs : eigen_solver K W) argsort n, is_argsort argsort ->
  (forall err, eigs false m mv n = Err err -> Top0 eigs argsort n c (dvec d) = Err err) /\
  (forall vals vecs top, eigs false m mv n = Ok (vals, vecs) -> n <> 0 -> length vals = n -> leading top vals -> top <> 0%R ->
    exists L, Top0 eigs argsort n c (dvec d) = Ok L /\ sorted_values top vals L /\ modulus (nth 0 L (0, 0)%R) = 1%R).
Proof. intros Hd. eexists. eexists. split; [|intros W eigs argsort n HA; rewrite Top0_eq; split; [intros err E; rewrite E; reflexivity|]].
  - intros D k N HN1 Hk HR HP HF HC. assert (E : [chi1_of Ts d c; chi2_of Ts d c] = r0dims D 0).
    { unfold r0dims, rim0. cbn [map ldim]. rewrite <- HC. destruct (k * N) as [|q] eqn:EQ; [nia|]. unfold seam in HF. cbn [seq flat_map along] in HF. apply fits_app in HF. destruct HF as [HF _].
      destruct Hd as [-> | ->]; apply Forall_cons_iff in HF; destruct HF as [[_ X] _]; cbn [fst snd map ldim] in X; unfold chi1_of, chi2_of, size; rewrite X; reflexivity. }
    split.
    + fold (r0dims D 0). rewrite <- E. cbn [prod_dims fold_right]. rewrite Nat.mul_1_r. reflexivity.
    + fold N. rewrite E. intros x Hx. destruct (iterate_ok0 D d c N k x Hd HR HP HF Hx) as (M & EM & [GM _]). exists M. split; [exact EM|exact GM].
  - intros vals vecs top E H0 Hl Hm Hm0. rewrite E. cbn [bind].
    destruct (sorted_spec_ok argsort HA vals vecs n top Hl Hm Hm0 true false H0 ltac:(discriminate)) as (L & X & E1 & E2 & _ & E4).
    exists L. match goal with |- context [bind ?e _ = _] => replace e with (Ok (L, X)) by (symmetry; exact E1) end. cbn [bind]. split; [reflexivity|]. split; [exact E2|now apply E4]. Qed.
End Seam.
