(** The correlation functions of two-site operators along the strip. *)
From Verif Require Import Base BaseLemmas Lattice Tensor TensorLemmas Net NetSpec NetProofs NetProofs2 NetProofs3 Corners CornersSpec CornersProofs Rdm RdmSpec RdmProofs Corr CorrSpec CorrProofs CorrProofs2 CorrProofs3 CorrProofs4 CorrProofs5 CorrProofs6.
From Verif Require Ctm.
From Coq Require Import Ring ArithRing Field Permutation.
Open Scope list_scope.
Open Scope nat_scope.
Open Scope res_scope.

Lemma Some_inj {A} (a b : A) : Some a = Some b -> a = b.
Proof. congruence. Qed.
Section P.
Context {K : Type} (z o : K) (add mul : K -> K -> K) (cj : K -> K) (sub : K -> K -> K) (opp : K -> K) (div : K -> K -> K) (inv : K -> K).
Hypothesis FT : field_theory z o add mul sub opp div inv eq.
Notation SR := (SR_of_field FT).
Add Field KF : FT.
Variable maxabs : tensor K -> K.
Hypothesis MA : forall t, maxabs t = z -> forall ix v, tget t ix = Some v -> v = z.
Notation ten := (tensor K).
Notation network := (@network K).
Variable svd : ten -> res (ten * list K * ten).
Hypothesis SV : svd_exact z add mul cj svd.
Variables (st : ipeps ten) (e : Ctm.envt ten) (As : coord -> ten) (Cs Ts : coord -> coord -> ten).
Hypothesis HS : sees st e As Cs Ts.
Notation TM := (apply_TM_1sO z o add mul cj st e).
Notation TM2 := (apply_TM_2sO_1sChannel z o add mul cj st e svd).
Notation col := (col_net cj As Ts).
Variable D : nat -> nat.
Hypothesis HD : forall k, D k <> 0.
Notation isc := (is_contraction D z o add mul).
Notation val := (value D z o add mul).
Notation good n := (holds z o add mul D (base n) (rim (base n))).
Variables (d : dir) (c : coord).
Notation site i := (along c d i).
Notation norm n := (norm_net cj As Cs Ts (None, None) d c n).
Notation dimer n O1 O2 := (dimer_net cj As Cs Ts (None, None) d c n O1 O2).
Notation cols := (cols cj As Ts d c).
Notation first := (first Cs Ts None d c).
Notation lastn := (lastn Cs Ts None d c).
Notation P0 := (P0 cj As Cs Ts None d c).

(** the halves of an operator on sites i and i+1 *)
Definition half_l (i : nat) (m : ten) : tensor K * list leg := (m, [V (ketb i); V (brab i); V (mbond (S i))]).
Definition half_r (i : nat) (m : ten) : tensor K * list leg := (m, [V (ketb (S i)); V (brab (S i)); V (mbond (S i))]).
Definition op_legs (i : nat) : list leg := [V (ketb i); V (ketb (S i)); V (brab i); V (brab (S i))].
Definition op_legs' (i : nat) : list leg := [V (brab i); V (brab (S i)); V (ketb i); V (ketb (S i))].
(** [op] fits the sites i, i+1, and is split into [l] and [r] *)
Definition splits (i : nat) (op l r : ten) : Prop :=
  split_op z o add mul cj svd true op = Ok (l, r) /\ length (tdims op) = 4 /\ fits D [half_l i l; half_r i r] /\ isc [half_l i l; half_r i r] (op_legs i) op.

Lemma inner_halves (l r : ten) a b a' b' m : a <> b -> a <> a' -> a <> b' -> a <> m -> b <> a' -> b <> b' -> b <> m -> a' <> b' -> a' <> m -> b' <> m ->
  inner [(l, [V a; V b; V m]); (r, [V a'; V b'; V m])] [V a; V a'; V b; V b'] = [m].
Proof. intros. unfold inner, net_bonds. cbn [flat_map snd bonds app].
  assert (N : nodup Nat.eq_dec [a; b; m; a'; b'; m] = [a; b; a'; b'; m]).
  { cbn [nodup]. destruct (in_dec Nat.eq_dec a _) as [I1|_]; [cbn in I1; exfalso; intuition congruence|]. destruct (in_dec Nat.eq_dec b _) as [I1|_]; [cbn in I1; exfalso; intuition congruence|].
    destruct (in_dec Nat.eq_dec m _) as [_|I1]; [|cbn in I1; exfalso; intuition congruence]. destruct (in_dec Nat.eq_dec a' _) as [I1|_]; [cbn in I1; exfalso; intuition congruence|].
    destruct (in_dec Nat.eq_dec b' _) as [I1|_]; [cbn in I1; exfalso; intuition congruence|]. destruct (in_dec Nat.eq_dec m _) as [[]|_]. reflexivity. }
  rewrite N. cbn [filter].
  destruct (in_dec Nat.eq_dec a _) as [_|I1]; [|cbn in I1; exfalso; intuition congruence]. destruct (in_dec Nat.eq_dec b _) as [_|I1]; [|cbn in I1; exfalso; intuition congruence].
  destruct (in_dec Nat.eq_dec a' _) as [_|I1]; [|cbn in I1; exfalso; intuition congruence]. destruct (in_dec Nat.eq_dec b' _) as [_|I1]; [|cbn in I1; exfalso; intuition congruence].
  destruct (in_dec Nat.eq_dec m _) as [I1|_]; [cbn in I1; exfalso; intuition congruence|]. reflexivity. Qed.
Lemma splits_of i op dd l r L : twf op -> tdims op = [dd; dd; dd; dd] -> fits D [(op, op_legs i)] -> D (mbond (S i)) = L ->
  split_op z o add mul cj svd true op = Ok (l, r) -> twf l -> twf r -> tdims l = [dd; dd; L] -> tdims r = [dd; dd; L] ->
  (forall a b c' e', a < dd -> b < dd -> c' < dd -> e' < dd ->
    tget op [a; b; c'; e'] = Some (sum_list z add (map (fun k => mul (entry z l [a; c'; k]) (entry z r [b; e'; k])) (seq 0 L)))) ->
  splits i op l r.
Proof. intros W Ho HF HL ES Wl Wr Hl Hr HV. apply fits_cons in HF. destruct HF as [[_ HF] _]. rewrite Ho in HF. cbn [op_legs map ldim] in HF. injection HF as D1 D2 D3 D4.
  split; [exact ES|]. split; [now rewrite Ho|]. split.
  - apply fits_cons. split; [|apply fits_cons; split; [|constructor]].
    + split; [exact Wl|]. cbn [map ldim]. now rewrite <- D1, <- D3, HL.
    + split; [exact Wr|]. cbn [map ldim]. now rewrite <- D2, <- D4, HL.
  - split; [exact W|]. split; [rewrite Ho; cbn [op_legs map ldim]; congruence|]. intros s Hs.
    assert (X : inner [half_l i l; half_r i r] (op_legs i) = [mbond (S i)]).
    { apply inner_halves; unfold ketb, brab, mbond, base; lia. }
    rewrite X. cbn [map lval op_legs sum_over]. rewrite HL.
    assert (R : s (ketb i) < dd /\ s (ketb (S i)) < dd /\ s (brab i) < dd /\ s (brab (S i)) < dd).
    { rewrite D1 at 1. rewrite D2 at 1. rewrite D3 at 1. rewrite D4. repeat split; apply Hs; cbn; tauto. }
    destruct R as (R1 & R2 & R3 & R4). rewrite HV by assumption. f_equal. f_equal. apply map_ext_in. intros k Hk. unfold product. cbn [map half_l half_r fst snd prod_list fold_right lval].
    assert (U : forall q, q <> mbond (S i) -> upd s (mbond (S i)) k q = s q). { intros q Hq. unfold upd. now rewrite (proj2 (Nat.eqb_neq q _) Hq). }
    rewrite (U (ketb i)), (U (brab i)), (U (ketb (S i))), (U (brab (S i))) by (unfold ketb, brab, mbond, base; lia). replace (upd s (mbond (S i)) k (mbond (S i))) with k by (unfold upd; now rewrite Nat.eqb_refl).
    cbn [fold_right prod_list]. ring. Qed.

Lemma grow2 n N E op l r : good n N E -> splits n op l r -> fits D (col d (site n) (base n) true) -> fits D (col d (site (S n)) (base (S n)) true) ->
  exists M, TM2 (site n) (dvec d) E (Some op) = Ok M /\
    good (S (S n)) ((N ++ col d (site n) (base n) true ++ [half_l n l]) ++ col d (site (S n)) (base (S n)) true ++ [half_r n r]) M.
Proof. intros HG (ES & H4 & HF & _) F1 F2. unfold apply_TM_2sO_1sChannel. rewrite H4. cbn [Nat.eqb bind]. rewrite ES. cbn [bind].
  unfold fits in HF. apply Forall_cons_iff in HF. destruct HF as [A1 HF]. apply Forall_cons_iff in HF. destruct HF as [A2 _].
  destruct (grow_opl z o add mul cj SR st e As Cs Ts HS D d (site n) n N E l HD HG F1) as (M1 & E1 & G1); [constructor; [exact A1|constructor]|].
  destruct (grow_opr z o add mul cj SR st e As Cs Ts HS D d (site (S n)) (S n) _ M1 r HD G1 F2) as (M2 & E2 & G2); [constructor; [exact A2|constructor]|].
  exists M2. rewrite E1. cbn [bind]. change (cadd (site n) (dvec d)) with (site (S n)). split; [exact E2|exact G2]. Qed.
Lemma grow2_none n N E : good n N E -> fits D (col d (site n) (base n) false) -> fits D (col d (site (S n)) (base (S n)) false) ->
  exists M, TM2 (site n) (dvec d) E None = Ok M /\ good (S (S n)) ((N ++ col d (site n) (base n) false) ++ col d (site (S n)) (base (S n)) false) M.
Proof. intros HG F1 F2. unfold apply_TM_2sO_1sChannel. cbn [bind].
  destruct (grow z o add mul cj SR st e As Cs Ts HS D d (site n) n N E HG F1) as (M1 & E1 & G1).
  destruct (grow z o add mul cj SR st e As Cs Ts HS D d (site (S n)) (S n) _ M1 G1 F2) as (M2 & E2 & G2).
  exists M2. rewrite E1. cbn [bind]. change (cadd (site n) (dvec d)) with (site (S n)). split; [exact E2|exact G2]. Qed.

(** putting the halves together again *)
Lemma unsplit i op op' l r R out M : splits i op l r -> is_transpose2 op op' -> fits D [(op', op_legs' i)] -> ~ In (mbond (S i)) (nvars R) -> ~ In (mbond (S i)) (flat_map bonds out) ->
  isc ([half_l i l; half_r i r] ++ R) out M -> isc ((op', op_legs' i) :: R) out M.
Proof. intros (ES & H4 & HF & HC) (W & W' & (d1 & d2 & d3 & d4 & Hd & Hd') & HT) HF' HR HO HI.
  apply (isc_unsub z o add mul SR D _ R (op_legs i) out op M HC) in HI.
  - revert HI. apply (isc_swap z o add mul sub opp div inv FT); [|intros q; cbn; tauto|intros q; cbn; tauto].
    apply fits_cons in HF'. destruct HF' as [[_ HF'] _]. rewrite Hd' in HF'. cbn [op_legs' map ldim] in HF'. injection HF' as D1 D2 D3 D4.
    apply (isc_releg z o add mul sub opp div inv FT); [exact W|rewrite Hd; cbn [op_legs map ldim]; congruence|intros q; cbn; tauto|].
    intros s Hs. cbn [map lval op_legs op_legs'].
    assert (R0 : in_range (tdims op) [s (ketb i); s (ketb (S i)); s (brab i); s (brab (S i))]).
    { rewrite Hd. rewrite D1, D2, D3, D4. repeat (constructor; [apply Hs; cbn [op_legs flat_map bonds app In]; tauto|]). constructor. }
    destruct (tget_Some op _ W R0) as [x Hx]. rewrite Hx. unfold entry. now rewrite HT, Hx.
  - unfold nvars. intros q Hq. cbn in Hq. cbn. tauto.
  - intros q Hq. apply In_inner in Hq. destruct Hq as [Hq Hn]. unfold nvars in Hq. cbn [half_l half_r op_legs flat_map snd bonds app In] in Hq, Hn.
    assert (q = mbond (S i)) by intuition congruence. subst q. split; assumption. Qed.

(** bonds of the strips are not bonds of halves *)
Definition plain (q : nat) : Prop := q mod 16 <> 12.
Lemma mod_base n j : j < 16 -> (base n + j) mod 16 = j.
Proof. intros H. unfold base. rewrite (Nat.add_comm (16 * S n)), (Nat.mul_comm 16), Nat.mod_add by lia. now apply Nat.mod_small. Qed.
Lemma plain_base n j : j < 12 -> plain (base n + j).
Proof. intros H. unfold plain. rewrite mod_base; lia. Qed.
Lemma mbond_not_plain n : ~ plain (mbond n).
Proof. intros H. apply H. unfold mbond. apply mod_base. lia. Qed.
Lemma rim_plain n q : In q (flat_map bonds (rim (base n))) -> plain q.
Proof. cbn [rim flat_map bonds app In FF]. rewrite <- (Nat.add_0_r (base n)) at 1. intros [<-|[<-|[<-|[<-|[]]]]]; apply plain_base; lia. Qed.
Lemma low_plain q : q < 12 -> plain q.
Proof. intros H. unfold plain. rewrite Nat.mod_small; lia. Qed.
Lemma col_plain v n op q : In q (nvars (col d v (base n) op)) -> plain q.
Proof. unfold nvars. destruct d, op; cbn [col_net flat_map snd bonds app In FF]; rewrite <- ?(base_S n); intros H; repeat (destruct H as [<-|H]; [first [apply plain_base; lia|rewrite <- (Nat.add_0_r (base n)); apply plain_base; lia|rewrite <- (Nat.add_0_r (base (S n))); apply plain_base; lia|
    rewrite <- Nat.add_assoc; apply plain_base; lia]|]); contradiction H. Qed.
Lemma cols_plain g a k q : In q (nvars (flat_map (fun i => col d (site i) (base i) (g i)) (seq a k))) -> plain q.
Proof. unfold nvars. intros H. apply in_flat_map in H. destruct H as (f & Hf & Hq). apply in_flat_map in Hf. destruct Hf as (i & _ & Hf).
  apply (col_plain (site i) i (g i)). unfold nvars. apply in_flat_map. exists f. now split. Qed.
Lemma edge_plain d' v n x q : In q (nvars (edge_net Cs Ts d' v (base n) x)) -> plain x -> plain (S x) -> plain q.
Proof. intros H P1 P2. unfold nvars in H. destruct d'; cbn [edge_net flat_map snd bonds app In FF] in H; repeat (destruct H as [<-|H]; [first [assumption|apply plain_base; lia|rewrite <- (Nat.add_0_r (base n)); apply plain_base; lia]|]); contradiction H. Qed.
Lemma strip_plain n op q : In q (nvars (strip cj As Cs Ts (None, None) d c n op)) -> plain q.
Proof. unfold strip. rewrite !nvars_app, !in_app_iff. intros [H|[H|H]].
  - cbn [first_edge fst] in H. apply (edge_plain _ _ 0 0) in H; [exact H|apply low_plain; lia|apply low_plain; lia].
  - revert H. apply cols_plain.
  - cbn [last_edge snd] in H. apply edge_plain in H; [exact H|apply plain_base; lia|rewrite <- Nat.add_succ_r; apply plain_base; lia]. Qed.

Definition Q1 (l1 r1 : ten) (r : nat) : network :=
  first ++ (col d c (base 0) true ++ [half_l 0 l1]) ++ (col d (site 1) (base 1) true ++ [half_r 0 r1]) ++ cols 2 r.
Lemma Q1_S l1 r1 r : Q1 l1 r1 (S r) = Q1 l1 r1 r ++ col d (site (r + 2)) (base (r + 2)) false.
Proof. unfold Q1. rewrite (cols_S cj As Ts d c 2 r), !app_assoc. now replace (2 + r) with (r + 2) by lia. Qed.
Definition dstrip (r : nat) : network := strip cj As Cs Ts (None, None) d c (r + 4) (at_one_of [0; 1; r + 4 - 2; r + 4 - 1]).
Lemma dstrip_eq r : dstrip r = first ++ (col d c (base 0) true ++ col d (site 1) (base 1) true ++ cols 2 r ++
  col d (site (r + 2)) (base (r + 2)) true ++ col d (site (r + 3)) (base (r + 3)) true) ++ lastn (r + 4).
Proof. unfold dstrip, strip. cbn [fst snd]. f_equal. f_equal. replace (seq 0 (r + 4)) with (0 :: 1 :: seq 2 r ++ [r + 2; r + 3]).
  2:{ replace (r + 4) with (2 + (r + 2)) by lia. cbn [plus seq]. do 2 f_equal. rewrite seq_app. cbn. repeat f_equal; lia. }
  set (g := at_one_of _). cbn [flat_map]. rewrite flat_map_app. cbn [flat_map]. rewrite app_nil_r.
  assert (T : forall i, i = 0 \/ i = 1 \/ i = r + 2 \/ i = r + 3 -> g i = true).
  { intros i Hi. unfold g, at_one_of. cbn [existsb]. rewrite !orb_true_iff, !Nat.eqb_eq. intuition lia. }
  rewrite (cols_ext cj As Ts d c g 2 r).
  2:{ intros i Hi. unfold g, at_one_of. cbn [existsb]. rewrite !orb_false_iff, !Nat.eqb_neq. intuition lia. }
  rewrite !T by tauto. reflexivity. Qed.
Lemma Q1_perm k r l1 r1 l2 r2 : Permutation
  (((scal k :: Q1 l1 r1 r) ++ col d (site (r + 2)) (base (r + 2)) true ++ [half_l (r + 2) l2]) ++ (col d (site (r + 3)) (base (r + 3)) true ++ [half_r (r + 2) r2]) ++ lastn (r + 4))
  ([half_l 0 l1; half_r 0 r1] ++ [half_l (r + 2) l2; half_r (r + 2) r2] ++ scal k :: dstrip r).
Proof. rewrite dstrip_eq. unfold Q1.
  generalize first (col d c (base 0) true) (col d (site 1) (base 1) true) (cols 2 r) (col d (site (r + 2)) (base (r + 2)) true) (col d (site (r + 3)) (base (r + 3)) true) (lastn (r + 4)).
  intros F A B X C C' L. generalize (half_l 0 l1) (half_r 0 r1) (half_l (r + 2) l2) (half_r (r + 2) r2) (scal k). intros a b a' b' w.
  cbn [app]. rewrite <- !app_assoc. cbn [app].
  assert (S1 : forall (x : tensor K * list leg) (u v : network), Permutation (u ++ x :: v) (x :: u ++ v)) by (intros; symmetry; apply Permutation_middle).
  transitivity (w :: a :: F ++ A ++ B ++ b :: X ++ C ++ a' :: C' ++ b' :: L).
  { constructor. rewrite app_assoc, S1, <- app_assoc. reflexivity. }
  transitivity (w :: a :: b :: F ++ A ++ B ++ X ++ C ++ a' :: C' ++ b' :: L).
  { do 2 constructor. rewrite (app_assoc A), (app_assoc F), S1, <- !app_assoc. reflexivity. }
  transitivity (w :: a :: b :: a' :: F ++ A ++ B ++ X ++ C ++ C' ++ b' :: L).
  { do 3 constructor. rewrite (app_assoc X), (app_assoc B), (app_assoc A), (app_assoc F), S1, <- !app_assoc. reflexivity. }
  transitivity (w :: a :: b :: a' :: b' :: F ++ A ++ B ++ X ++ C ++ C' ++ L).
  { do 4 constructor. rewrite (app_assoc C), (app_assoc X), (app_assoc B), (app_assoc A), (app_assoc F), S1, <- !app_assoc. reflexivity. }
  apply (Permutation_middle [a; b; a'; b']). Qed.
Lemma dimer_perm k r O1 O2 : Permutation ((O2, op_legs' (r + 2)) :: (O1, op_legs' 0) :: scal k :: dstrip r) (scal k :: dimer (r + 4) O1 O2).
Proof. unfold dimer_net. fold (dstrip r). replace (r + 4 - 2) with (r + 2) by lia. replace (r + 4 - 1) with (S (r + 2)) by lia.
  fold (op_legs' 0). fold (op_legs' (r + 2)).
  assert (E : dstrip r ++ [(O1, op_legs' 0); (O2, op_legs' (r + 2))] = dstrip r ++ [(O1, op_legs' 0); (O2, op_legs' (r + 2))]) by reflexivity.
  transitivity (scal k :: [(O1, op_legs' 0); (O2, op_legs' (r + 2))] ++ dstrip r); [|constructor; apply Permutation_app_comm].
  cbn [app]. transitivity ((O1, op_legs' 0) :: (O2, op_legs' (r + 2)) :: scal k :: dstrip r); [apply perm_swap|].
  transitivity ((O1, op_legs' 0) :: scal k :: (O2, op_legs' (r + 2)) :: dstrip r); [constructor; apply perm_swap|apply perm_swap]. Qed.

Lemma fits_norm_at n i : i < n -> fits D (norm n) -> fits D (col d (site i) (base i) false).
Proof. intros Hi H. unfold norm_net, strip in H. apply fits_app in H. destruct H as [_ H]. apply fits_app in H. destruct H as [H _].
  unfold fits in *. rewrite Forall_forall in *. intros f Hf. apply H. apply in_flat_map. exists i. split; [apply in_seq; lia|exact Hf]. Qed.
Lemma fits_norm_last n : fits D (norm n) -> fits D (lastn n) /\ fits D first.
Proof. intros H. unfold norm_net, strip in H. apply fits_app in H. destruct H as [H1 H]. apply fits_app in H. destruct H as [_ H]. split; assumption. Qed.
Lemma fits_dimer r O1 O2 : fits D (dimer (r + 4) O1 O2) -> fits D (col d c (base 0) true) /\ fits D (col d (site 1) (base 1) true) /\
  fits D (col d (site (r + 2)) (base (r + 2)) true) /\ fits D (col d (site (S (r + 2))) (base (S (r + 2))) true) /\ fits D [(O1, op_legs' 0)] /\ fits D [(O2, op_legs' (r + 2))].
Proof. unfold dimer_net. fold (dstrip r). replace (r + 4 - 2) with (r + 2) by lia. replace (r + 4 - 1) with (S (r + 2)) by lia. replace (S (r + 2)) with (r + 3) at 3 4 by lia.
  intros H. apply fits_app in H. destruct H as [H HO]. rewrite dstrip_eq in H. apply fits_app in H. destruct H as [_ H]. apply fits_app in H. destruct H as [H _].
  apply fits_app in H. destruct H as [H0 H]. apply fits_app in H. destruct H as [H1 H]. apply fits_app in H. destruct H as [_ H]. apply fits_app in H. destruct H as [H2 H3].
  unfold fits in HO. apply Forall_cons_iff in HO. destruct HO as [HO1 HO]. apply Forall_cons_iff in HO. destruct HO as [HO2 _].
  replace (S (r + 2)) with (r + 3) by lia. repeat split; try assumption; constructor; try (constructor; fail); try assumption. Qed.

Lemma loop2_ok op1 op1' op2 op2' l1 r1 l2 r2 : is_transpose2 op1 op1' -> (forall r, is_transpose2 (op2 r) (op2' r)) ->
  splits 0 op1 l1 r1 ->
  forall n r k E0 E1, k <> z -> good (r + 2) (scal k :: P0 (S r)) E0 -> good (r + 2) (scal k :: Q1 l1 r1 r) E1 ->
  (forall j, r <= j < r + n -> splits (j + 2) (op2 j) (l2 j) (r2 j) /\ fits D (norm (j + 4)) /\ fits D (dimer (j + 4) op1' (op2' j)) /\ val (norm (j + 4)) <> z) ->
  corrf2h_loop z o add mul cj st e svd div maxabs n r (site (r + 2)) (dvec d) op2 E0 E1 =
  Ok (map (fun j => div (val (dimer (j + 4) op1' (op2' j))) (val (norm (j + 4)))) (seq r n)).
Proof. intros HT1 HT2 HS1. induction n as [|n IH]; intros r k E0 E1 Hk HG0 HG1 HF; [reflexivity|].
  destruct (HF r) as (HS2 & FN & FC & VN); [lia|]. destruct (fits_dimer _ _ _ FC) as (_ & _ & FA & FB & F1 & F2).
  destruct (fits_norm_last _ FN) as (FL & _). assert (FA0 := fits_norm_at (r + 4) (r + 2) ltac:(lia) FN). assert (FB0 := fits_norm_at (r + 4) (S (r + 2)) ltac:(lia) FN).
  cbn [corrf2h_loop]. change (cadd (site (r + 2)) (dvec d)) with (site (S (r + 2))).
  destruct (grow2 (r + 2) _ _ (op2 r) (l2 r) (r2 r) HG1 HS2 FA FB) as (E12 & X12 & G12).
  destruct (grow z o add mul cj SR st e As Cs Ts HS D d (site (r + 2)) (r + 2) _ _ HG0 FA0) as (E0' & X0 & G0').
  destruct (grow z o add mul cj SR st e As Cs Ts HS D d (site (r + 2)) (r + 2) _ _ HG1 FA0) as (E1' & X1 & G1').
  destruct (grow z o add mul cj SR st e As Cs Ts HS D d (site (S (r + 2))) (S (r + 2)) _ _ G0' FB0) as (E00 & X00 & G00).
  rewrite X12; cbn [bind]. rewrite X0; cbn [bind]. rewrite X1; cbn [bind].
  assert (EL : lastn (r + 4) = last_edge Cs Ts None d (site (S (r + 2))) (base (S (S (r + 2))))) by (unfold CorrProofs5.lastn; replace (r + 4) with (S (S (r + 2))) by lia; reflexivity).
  assert (FL' : fits D (last_edge Cs Ts None d (site (S (r + 2))) (base (S (S (r + 2)))))) by (rewrite <- EL; exact FL).
  destruct (close z o add mul cj SR st e As Cs Ts HS D d (site (S (r + 2))) (S (S (r + 2))) _ _ None G12 FL') as (M12 & Y12 & _ & I12).
  destruct (close z o add mul cj SR st e As Cs Ts HS D d (site (S (r + 2))) (S (S (r + 2))) _ _ None G00 FL') as (M00 & Y00 & _ & I00).
  cbn iota in Y12, Y00. rewrite Y12; cbn [bind]. rewrite X00; cbn [bind]. rewrite Y00; cbn [bind]. rewrite <- EL in I12, I00.
  assert (Z0 : isc ((E0', rim (base (S (r + 2)))) :: col d (site (S (r + 2))) (base (S (r + 2))) false ++ lastn (r + 4)) [] M00).
  { assert (G : good (S (r + 2)) [(E0', rim (base (S (r + 2))))] E0').
    { destruct G0' as [(W & Hd & _) _]. split; [apply (isc_leaf z o add mul SR); assumption|]. unfold below, nvars. cbn [flat_map snd]. rewrite app_nil_r. split; [intros q Hq; now right|apply incl_refl]. }
    destruct (grow z o add mul cj SR st e As Cs Ts HS D d (site (S (r + 2))) (S (r + 2)) _ _ G FB0) as (E00' & X00' & G00').
    rewrite X00 in X00'. injection X00' as <-.
    destruct (close z o add mul cj SR st e As Cs Ts HS D d (site (S (r + 2))) (S (S (r + 2))) _ _ None G00' FL') as (M00' & Y00' & _ & I00'). cbn iota in Y00'. rewrite Y00 in Y00'. injection Y00' as <-.
    rewrite EL. cbn [app] in I00'. exact I00'. }
  assert (V12 : isc (scal k :: dimer (r + 4) op1' (op2' r)) [] M12).
  { assert (P := Q1_perm k r l1 r1 (l2 r) (r2 r)). replace (r + 3) with (S (r + 2)) in P by lia. rewrite <- !app_assoc in I12. rewrite <- !app_assoc in P.
    apply (isc_perm z o add mul SR D _ _ _ _ P) in I12. clear P.
    apply (isc_perm z o add mul SR D _ _ _ _ (dimer_perm k r op1' (op2' r))).
    assert (NP : forall i, ~ In (mbond i) (nvars (scal k :: dstrip r))).
    { intros i Hi. unfold nvars in Hi. cbn [flat_map scal snd app] in Hi. apply strip_plain in Hi. exact (mbond_not_plain _ Hi). }
    apply (unsplit 0 op1 op1' l1 r1) in I12; [|exact HS1|exact HT1|exact F1| |intros []].
    2:{ rewrite nvars_app, in_app_iff. intros [Hi|Hi]; [|exact (NP _ Hi)]. unfold nvars in Hi. cbn [flat_map half_l half_r snd bonds app In] in Hi. unfold mbond, ketb, brab, base in Hi. lia. }
    cbn [app] in I12.
    apply (unsplit (r + 2) (op2 r) (op2' r) (l2 r) (r2 r)); [exact HS2|apply HT2|exact F2| |intros []|].
    { change ((op1', op_legs' 0) :: scal k :: dstrip r) with ([(op1', op_legs' 0)] ++ scal k :: dstrip r). rewrite nvars_app, in_app_iff. intros [Hi|Hi]; [|exact (NP _ Hi)].
      unfold nvars in Hi. cbn [flat_map op_legs' snd bonds app In] in Hi. unfold mbond, ketb, brab, base in Hi. lia. }
    revert I12. apply (isc_perm z o add mul SR D). cbn [app]. apply (Permutation_middle [half_l (r + 2) (l2 r); half_r (r + 2) (r2 r)]). }
  assert (V00 : isc (scal k :: norm (r + 4)) [] M00).
  { replace (r + 4) with (S (S r) + 2) by lia. rewrite norm_split. replace (S (S r)) with (r + 2) by lia. replace (r + 2 + 2) with (r + 4) by lia.
    replace (P0 (r + 2)) with (P0 (S r) ++ col d (site (r + 2)) (base (r + 2)) false).
    2:{ replace (r + 2) with (S (S r)) by lia. symmetry. apply P0_S. }
    rewrite <- !app_assoc in I00. rewrite <- !app_assoc. cbn [app] in I00. rewrite <- ?app_assoc in I00. exact I00. }
  rewrite (scalar_ok z o add mul D _ _ V12), (scalar_ok z o add mul D _ _ V00). cbn [bind].
  rewrite !(value_scal z o add mul SR).
  assert (Hm : maxabs E0' <> z).
  { apply (max_nonzero z o add mul sub opp div inv FT maxabs MA D E0' (rim (base (S (r + 2)))) (col d (site (S (r + 2))) (base (S (r + 2))) false ++ lastn (r + 4))). intros H.
    assert (Y := isc_value z o add mul D _ _ Z0). assert (Y' := isc_value z o add mul D _ _ V00). destruct Y as [_ Y]. destruct Y' as [_ Y'].
    rewrite Y in Y'. apply Some_inj in Y'. rewrite H, (value_scal z o add mul SR) in Y'. symmetry in Y'. exact (mul_nonzero z o add mul sub opp div inv FT _ _ Hk VN Y'). }
  change (site (S (r + 2))) with (site (S r + 2)).
  rewrite (IH (S r) (mul (inv (maxabs E0')) k)).
  - cbn [bind seq map]. do 2 f_equal. field. split; assumption.
  - apply (mul_nonzero z o add mul sub opp div inv FT); [apply (inv_nonzero z o add mul sub opp div inv FT); exact Hm|exact Hk].
  - apply (good_rescale z o add mul sub opp div inv FT); [exact Hm|]. rewrite (P0_S cj As Cs Ts None d c (S r)). replace (S (S r)) with (r + 2) by lia. exact G0'.
  - apply (good_rescale z o add mul sub opp div inv FT); [exact Hm|]. rewrite Q1_S. exact G1'.
  - intros j Hj. apply HF. lia. Qed.
End P.
