(** The transfer operators with one row of sites apply the drawn channel, and repeat it. *)
From Coq Require Import Reals.
From Verif Require Import Base BaseLemmas Lattice Tensor TensorLemmas Net NetSpec NetProofs NetProofs2 NetProofs3 Corners CornersSpec Rdm RdmSpec Corr CorrSpec CorrC4v CorrC4vSpec CorrProofs CorrProofs2 CorrProofs3 CorrProofs4 CorrProofs5 CorrC4vProofs4 CorrC4vProofs5 Transfer TransferSpec TransferProofs.
From Verif Require Ctm.
From Coq Require Import Ring ArithRing Field Permutation Lia.
Open Scope list_scope.
Open Scope nat_scope.
Open Scope res_scope.

Section View.
Context {K : Type}.
Lemma view_self (M : tensor K) dims n : twf M -> tdims M = dims -> view (mkT [n] (tdata M)) dims = Ok M.
Proof. intros W E. unfold view, treshape. cbn [tdata]. unfold twf in W. rewrite E in W. rewrite W, Nat.eqb_refl. rewrite <- E. now destruct M. Qed.
Lemma view_list dims (x : list K) n : length x = prod_dims dims -> view (mkT [n] x) dims = Ok (mkT dims x).
Proof. intros E. unfold view, treshape. cbn [tdata]. now rewrite E, Nat.eqb_refl. Qed.
Lemma view_flat (M : tensor K) dims : twf M -> tdims M = dims -> exists V, view M [prod_dims dims] = Ok V /\ tdata V = tdata M.
Proof. intros W E. unfold view, treshape. unfold twf in W. rewrite W, E. unfold prod_dims at 2. cbn [fold_right]. rewrite Nat.mul_1_r, Nat.eqb_refl. eexists. split; reflexivity. Qed.
(** one application to the entries of a tensor *)
Lemma matvec_of dims f (M M' : tensor K) : twf M -> tdims M = dims -> f M = Ok M' -> twf M' -> tdims M' = dims ->
  matvec dims f (tdata M) = Ok (tdata M').
Proof. intros W E F W' E'. unfold matvec. rewrite (view_self M dims _ W E). cbn [bind]. rewrite F. cbn [bind].
  destruct (view_flat M' dims W' E') as (V & EV & ED). rewrite EV. cbn [bind]. now rewrite ED. Qed.
End View.

Section P.
Context {K : Type} (z o : K) (add mul : K -> K -> K) (cj : K -> K).
Hypothesis SR : semi_ring_theory z o add mul eq.
Notation ten := (tensor K).
Notation network := (@network K).
Variables (st : ipeps ten) (e : Ctm.envt ten) (As : coord -> ten) (Cs Ts : coord -> coord -> ten).
Hypothesis HS : sees st e As Cs Ts.
Notation TM := (apply_TM_1sO z o add mul cj st e).
Notation col := (col_net cj As Ts).

Lemma TM_same v v' d E op : i_v2s st v = i_v2s st v' -> TM v d E op = TM v' d E op.
Proof. intros H. unfold apply_TM_1sO. now rewrite H. Qed.
Lemma along_S c d k : cadd (along c d k) (dvec d) = along c d (S k).
Proof. reflexivity. Qed.

Section D.
Variable D : nat -> nat.
Notation isc := (is_contraction D z o add mul).
Notation good n := (holds z o add mul D (base n) (rim (base n))).
Lemma steps_grow d c n : forall j i N E, good i N E ->
  (forall t, t < n -> i_v2s st (along c d (j + t)) = i_v2s st (along c d (i + t))) ->
  fits D (flat_map (fun t => col d (along c d t) (base t) false) (seq i n)) ->
  exists M, steps (fun v V => TM v (dvec d) V None) (dvec d) n (along c d j) E = Ok M /\
    good (i + n) (N ++ flat_map (fun t => col d (along c d t) (base t) false) (seq i n)) M.
Proof. induction n as [|n IH]; intros j i N E HG HR HF.
  - exists E. split; [reflexivity|]. cbn [seq flat_map]. now rewrite app_nil_r, Nat.add_0_r.
  - cbn [seq flat_map] in *. apply fits_app in HF. destruct HF as [F1 F2].
    destruct (grow z o add mul cj SR st e As Cs Ts HS D d (along c d i) i N E HG F1) as (M & EM & GM).
    destruct (IH (S j) (S i) _ M GM) as (M' & EM' & GM').
    + intros t Ht. assert (X := HR (S t) ltac:(lia)). now rewrite !Nat.add_succ_r in X.
    + exact F2.
    + exists M'. split.
      * cbn [steps]. assert (X := HR 0 ltac:(lia)). rewrite !Nat.add_0_r in X. rewrite (TM_same _ _ (dvec d) E None X), EM. cbn [bind]. exact EM'.
      * rewrite Nat.add_succ_r. rewrite app_assoc. exact GM'. Qed.
Lemma good_vec i x : length x = prod_dims (map (ldim D) (rim (base i))) -> good i [(mkT (map (ldim D) (rim (base i))) x, rim (base i))] (mkT (map (ldim D) (rim (base i))) x).
Proof. intros H. split; [apply (isc_leaf z o add mul SR); [exact H|reflexivity]|]. unfold below, nvars. cbn [flat_map snd]. rewrite app_nil_r. split; [intros q Hq; now right|apply incl_refl]. Qed.

Definition rdims (n : nat) : list nat := map (ldim D) (rim (base n)).
Lemma rdims_same n k : same_rims D n -> rdims (k * n) = rdims 0.
Proof. intros H. unfold rdims, rim, FF. cbn [map ldim]. assert (H0 := H k 0 ltac:(lia)). rewrite !Nat.add_0_r in H0. rewrite H0. now rewrite !H by lia. Qed.

Notation mvop d c n := (matvec (rdims 0) (steps (fun v V => TM v (dvec d) V None) (dvec d) n c)).
Lemma iterate_ok d c n k x : same_rims D n -> (2 <= k -> repeats st c d n) -> fits D (channel cj As Ts d c (k * n)) ->
  length x = prod_dims (rdims 0) ->
  exists M, iterate k (mvop d c n) x = Ok (tdata M) /\ good (k * n) ((mkT (rdims 0) x, rim (base 0)) :: channel cj As Ts d c (k * n)) M.
Proof. intros HR HP. induction k as [|k IH]; intros HF Hx.
  - exists (mkT (rdims 0) x). split; [reflexivity|]. cbn [Nat.mul]. exact (good_vec 0 x Hx).
  - assert (EN : S k * n = k * n + n) by lia. rewrite EN in *. unfold channel in HF. rewrite seq_app, flat_map_app in HF. apply fits_app in HF. destruct HF as [F1 F2]. cbn [Nat.add] in F2.
    destruct IH as (M & EM & GM); [intros Hk; apply HP; lia|exact F1|exact Hx|].
    destruct (steps_grow d c n 0 (k * n) _ M GM) as (M' & EM' & GM').
    + intros t Ht. cbn [Nat.add]. destruct k as [|k']; [reflexivity|]. assert (HP' := HP ltac:(lia)). clear -HP'. generalize (S k') as q. induction q as [|q IHq]; [reflexivity|].
      rewrite IHq. rewrite <- HP'. f_equal. f_equal. lia.
    + exact F2.
    + exists M'. split.
      * cbn [iterate]. rewrite EM. cbn [bind]. destruct (holds_fits z o add mul D _ _ _ _ GM) as [W1 E1]. destruct (holds_fits z o add mul D _ _ _ _ GM') as [W2 E2].
        apply (matvec_of (rdims 0) _ M M'); [exact W1| |exact EM'|exact W2|].
        -- rewrite E1. now apply rdims_same.
        -- rewrite E2. replace (k * n + n) with (S k * n) by lia. now apply rdims_same.
      * unfold channel. rewrite seq_app, flat_map_app. exact GM'. Qed.
Lemma operator_applies d c n k : same_rims D n -> (2 <= k -> repeats st c d n) -> fits D (channel cj As Ts d c (k * n)) ->
  applies D z o add mul (iterate k (mvop d c n)) (rim (base 0)) (channel cj As Ts d c (k * n)) (rim (base (k * n))).
Proof. intros H1 H2 H3 x Hx. destruct (iterate_ok d c n k x H1 H2 H3 Hx) as (M & EM & [GM _]). exists M. split; [exact EM|exact GM]. Qed.

(** the sizes read off the environment *)
Definition chi1_of d c := match d with Up => size (Ts c (-1, 0)%Z) 1 | Down => size (Ts c (-1, 0)%Z) 0 | Left => size (Ts c (0, -1)%Z) 2 | Right => size (Ts c (0, -1)%Z) 0 end.
Definition chi2_of d c := match d with Up => size (Ts c (1, 0)%Z) 2 | Down => size (Ts c (1, 0)%Z) 0 | Left => size (Ts c (0, 1)%Z) 2 | Right => size (Ts c (0, 1)%Z) 1 end.
Definition ad_of d c := size (As c) (match d with Up => 3 | Left => 4 | Down => 1 | Right => 2 end).
Lemma get_chis_eq d c : get_chis st e c (dvec d) 0%Z = Ok (chi1_of d c, chi2_of d c).
Proof. destruct (HS c) as (k & Hk & Hkk & _ & _ & HT). unfold get_chis. rewrite Hk.
  assert (H1 := HT (0, -1)%Z ltac:(cbn; tauto)). assert (H2 := HT (1, 0)%Z ltac:(cbn; tauto)).
  assert (H3 := HT (0, 1)%Z ltac:(cbn; tauto)). assert (H4 := HT (-1, 0)%Z ltac:(cbn; tauto)).
  assert (E0 : forall d, cadd k (cmul 0 d) = k) by (intros d0; unfold cadd, cmul; destruct k; cbn; now rewrite !Z.add_0_r).
  replace (is_dir (dvec d)) with true by (destruct d; reflexivity). cbn [py_assert bind]. rewrite !E0, Hkk. cbn [bind].
  unfold d_up, d_left, d_down, d_right. rewrite H1, H2, H3, H4. destruct d; reflexivity. Qed.
Lemma dims_of d c n : 0 < n -> fits D (channel cj As Ts d c n) ->
  [chi1_of d c; ad_of d c * ad_of d c; chi2_of d c] = rdims 0.
Proof. intros Hn HF. destruct n as [|n]; [lia|]. unfold channel in HF. cbn [seq flat_map along] in HF. apply fits_app in HF. destruct HF as [HF _].
  unfold rdims, rim, FF, chi1_of, chi2_of, ad_of, size. 
  assert (HB : D (base 0 + 1) = D (base 0 + 2)).
  { destruct d; repeat (apply Forall_cons_iff in HF; destruct HF as [[? ?] HF]); cbn [fst snd map ldim tmap tdims] in *; congruence. }
  destruct d; repeat (apply Forall_cons_iff in HF; let X := fresh "X" in destruct HF as [[_ X] HF]; cbn [fst snd map ldim tmap tdims FF] in X); 
   rewrite ?X, ?X0, ?X1, ?X2; cbn [nth map ldim]; rewrite <- HB; reflexivity. Qed.
End D.

Lemma unit_length_eq d : unit_length st (dvec d) = Ok (cell_length st d).
Proof. destruct d; reflexivity. Qed.
Notation Top eigs argsort := (get_Top_spec z o add mul cj eigs argsort st e).
Lemma Top_eq {W} (eigs : eigen_solver K W) argsort n c d ev : Top eigs argsort n c (dvec d) ev =
  (r <- eigs ev (chi1_of d c * ad_of d c * ad_of d c * chi2_of d c)
          (matvec [chi1_of d c; ad_of d c * ad_of d c; chi2_of d c] (steps (fun v V => TM v (dvec d) V None) (dvec d) (cell_length st d) c)) n ;;
   sorted_spec argsort n true ev r).
Proof. destruct (HS c) as (k & Hk & Hkk & Hsite & _ & _). unfold get_Top_spec. rewrite get_chis_eq. cbn [bind]. rewrite Hsite. cbn [bind]. rewrite unit_length_eq.
  destruct d; reflexivity. Qed.
Lemma Top_ok c d : exists m mv,
  (forall D k, let N := cell_length st d in 1 <= N -> 1 <= k -> same_rims D N -> (2 <= k -> repeats st c d N) ->
    fits D (channel cj As Ts d c (k * N)) ->
    m = prod_dims (map (ldim D) (rim (base 0))) /\
    applies D z o add mul (iterate k mv) (rim (base 0)) (channel cj As Ts d c (k * N)) (rim (base (k * N)))) /\
  forall W (eigs : eigen_solver K W) argsort n ev, is_argsort argsort ->
  (forall err, eigs ev m mv n = Err err -> Top eigs argsort n c (dvec d) ev = Err err) /\
  (forall vals vecs top, eigs ev m mv n = Ok (vals, vecs) -> n <> 0 -> length vals = n -> (ev = true -> length vecs = n) -> leading top vals -> top <> 0%R ->
    exists L X, Top eigs argsort n c (dvec d) ev = Ok (L, X) /\ sorted_values top vals L /\ modulus (nth 0 L (0, 0)%R) = 1%R /\
    if ev then sorted_pairs top vals vecs L X else X = []).
Proof. exists (chi1_of d c * ad_of d c * ad_of d c * chi2_of d c),
    (matvec [chi1_of d c; ad_of d c * ad_of d c; chi2_of d c] (steps (fun v V => TM v (dvec d) V None) (dvec d) (cell_length st d) c)). split.
  - intros D k N HN Hk HR HP HF. assert (E := dims_of D d c (k * N) ltac:(nia) HF). split.
    + fold (rdims D 0). rewrite <- E. cbn [prod_dims fold_right]. lia.
    + fold N. rewrite E. now apply operator_applies.
  - intros W eigs argsort n ev HA. rewrite Top_eq. split.
    + intros err E. rewrite E. reflexivity.
    + intros vals vecs top E H0 Hl Hv Hm Hm0. rewrite E. cbn [bind].
      destruct (sorted_spec_ok argsort HA vals vecs n top Hl Hm Hm0 true ev H0 Hv) as (L & X & E1 & E2 & E3 & E4).
      exists L, X. split; [exact E1|]. split; [exact E2|]. split; [now apply E4|exact E3]. Qed.
End P.
