(** The correlation functions of one-site operators. *)
From Verif Require Import Base BaseLemmas Lattice Tensor TensorLemmas Net NetSpec NetProofs NetProofs2 NetProofs3 Corners CornersSpec CornersProofs Rdm RdmSpec RdmProofs Corr CorrSpec CorrProofs CorrProofs2 CorrProofs3 CorrProofs4.
From Verif Require Ctm.
From Coq Require Import Ring ArithRing Field Permutation.
Open Scope list_scope.
Open Scope nat_scope.
Open Scope res_scope.

Lemma SR_of_field {K} {z o : K} {add mul sub opp div inv} (FT : field_theory z o add mul sub opp div inv eq) : semi_ring_theory z o add mul eq.
Proof. apply (ARth_SRth (ropp := opp) (rsub := sub)). apply (Rth_ARth (Eqsth K)). 2: exact (F_R FT).
  split; repeat intro; congruence. Qed.

Section P.
Context {K : Type} (z o : K) (add mul : K -> K -> K) (cj : K -> K) (sub : K -> K -> K) (opp : K -> K) (div : K -> K -> K) (inv : K -> K).
Hypothesis FT : field_theory z o add mul sub opp div inv eq.
Local Definition SR : semi_ring_theory z o add mul eq := SR_of_field FT.
Add Field KF : FT.
Variable maxabs : tensor K -> K.
Hypothesis MA : forall t, maxabs t = z -> forall ix v, tget t ix = Some v -> v = z.
Notation ten := (tensor K).
Notation network := (@network K).
Variables (st : ipeps ten) (e : Ctm.envt ten) (As : coord -> ten) (Cs Ts : coord -> coord -> ten).
Hypothesis HS : sees st e As Cs Ts.
Notation TM := (apply_TM_1sO z o add mul cj st e).
Notation col := (col_net cj As Ts).
Notation edge := (edge_net Cs Ts).
Notation GE := (get_edge z o add mul st e).
Notation AE := (apply_edge z o add mul st e).
Variable D : nat -> nat.
Notation isc := (is_contraction D z o add mul).
Notation val := (value D z o add mul).
Notation good n := (holds z o add mul D (base n) (rim (base n))).

(** a tensor with its legs in another order *)
Lemma isc_releg (m m' : ten) ts ts' : twf m -> tdims m = map (ldim D) ts -> incl (flat_map bonds ts') (flat_map bonds ts) ->
  (forall s, (forall l, In l (flat_map bonds ts) -> s l < D l) -> tget m (map (lval D s) ts) = Some (entry z m' (map (lval D s) ts'))) ->
  isc [(m', ts')] ts m.
Proof. intros W Hd HI HV. split; [exact W|]. split; [exact Hd|]. intros s Hs.
  assert (X : inner [(m', ts')] ts = []).
  { destruct (inner [(m', ts')] ts) as [|k l] eqn:Ek; [reflexivity|]. exfalso. assert (Hk : In k (k :: l)) by now left. rewrite <- Ek in Hk.
    apply In_inner in Hk. unfold nvars in Hk. cbn in Hk. rewrite app_nil_r in Hk. destruct Hk as [H1 H2]. apply H2, HI, H1. }
  rewrite X. rewrite (HV s Hs). f_equal. cbn -[entry]. ring. Qed.
Lemma isc_swap (m m' : ten) ts ts' R out M : isc [(m', ts')] ts m -> incl (flat_map bonds ts) (flat_map bonds ts') -> incl (flat_map bonds ts') (flat_map bonds ts) ->
  isc ((m, ts) :: R) out M -> isc ((m', ts') :: R) out M.
Proof. intros H1 HI1 HI2 H2. apply (isc_sub z o add mul SR D [(m', ts')] R ts out m M); [exact H1|exact H2| |].
  - unfold nvars. cbn. now rewrite app_nil_r.
  - intros l Hl. apply In_inner in Hl. unfold nvars in Hl. cbn in Hl. rewrite app_nil_r in Hl. destruct Hl as [A B]. exfalso. apply B, HI2, A. Qed.
Lemma transpose_releg (m m' : ten) a b : is_transpose m m' -> tdims m' = [D b; D a] -> isc [(m', [V b; V a])] [V a; V b] m.
Proof. intros (W & W' & Hd & Hl & HV) Hd'. assert (Hm : tdims m = [D a; D b]).
  { rewrite <- (rev_involutive (tdims m)), <- Hd, Hd'. reflexivity. }
  apply isc_releg; [exact W|exact Hm|intros l; cbn; tauto|]. intros s Hs. cbn [map lval].
  destruct (tget_Some m [s a; s b]) as [x Hx]; [exact W|rewrite Hm; constructor; [apply Hs; cbn; tauto|constructor; [apply Hs; cbn; tauto|constructor]]|].
  rewrite Hx. unfold entry. rewrite HV, Hx. reflexivity. Qed.
Lemma transpose_fits (m m' : ten) a b : is_transpose m m' -> fits D [(m', [V b; V a])] -> fits D [(m, [V a; V b])].
Proof. intros (W & W' & Hd & Hl & HV) HF. apply fits_cons in HF. destruct HF as [[_ Hd'] _]. apply fits_cons. split; [|constructor]. split; [exact W|].
  rewrite <- (rev_involutive (tdims m)), <- Hd, Hd'. reflexivity. Qed.

(** numbers *)
Lemma scalar_ok net M : isc net [] M -> scalar z M = Ok (val net).
Proof. intros H. apply isc_value in H. destruct H as [Hd HV]. unfold scalar. rewrite Hd. unfold tel. now rewrite HV. Qed.
Lemma rescale_eq m (t : ten) : m <> z -> rescale div m t = tmap (mul (inv m)) t.
Proof. intros Hm. unfold rescale, tmap. f_equal. apply map_ext. intros x. field. exact Hm. Qed.
Lemma good_rescale n N E c m : m <> z -> good n (scal c :: N) E -> good n (scal (mul (inv m) c) :: N) (rescale div m E).
Proof. intros Hm HG. rewrite rescale_eq by exact Hm. apply (good_scal_mul z o add mul SR), (good_scal z o add mul SR), HG. Qed.
Lemma max_nonzero E outs R : val ((E, outs) :: R) <> z -> maxabs E <> z.
Proof. intros H X. apply H. apply (value_zero z o add mul SR). intros ix. unfold entry. destruct (tget E ix) eqn:Ev; [|reflexivity]. exact (MA E X ix _ Ev). Qed.
Lemma mul_nonzero a b : a <> z -> b <> z -> mul a b <> z.
Proof. intros Ha Hb H. apply Ha. transitivity (mul (mul a b) (inv b)); [field; exact Hb|rewrite H; ring]. Qed.
Lemma inv_nonzero a : a <> z -> inv a <> z.
Proof. intros Ha H. apply (F_1_neq_0 FT). transitivity (mul a (inv a)); [field; exact Ha|rewrite H; ring]. Qed.

(** ** Networks *)
Variables (rl1 rl2 : option (coord -> ten)) (d : dir) (c : coord).
Notation site i := (along c d i).
Notation norm n := (norm_net cj As Cs Ts (rl1, rl2) d c n).
Notation corr n O1 O2 := (corr_net cj As Cs Ts (rl1, rl2) d c n O1 O2).
Definition cols (a k : nat) : network := flat_map (fun i => col d (site i) (base i) false) (seq a k).
Definition first := first_edge Cs Ts rl1 d c.
Definition lastn (n : nat) := last_edge Cs Ts rl2 d (site (n - 1)) (base n).
Definition P0 (r : nat) : network := first ++ cols 0 (S r).
Definition opf (i : nat) (m : ten) : tensor K * list leg := (m, [V (ketb i); V (brab i)]).
Definition P1 (op1 : ten) (r : nat) : network := first ++ (col d c (base 0) true ++ [opf 0 op1]) ++ cols 1 r.
Lemma cols_S a k : cols a (S k) = cols a k ++ col d (site (a + k)) (base (a + k)) false.
Proof. unfold cols. rewrite seq_S, flat_map_app. cbn [flat_map]. now rewrite app_nil_r. Qed.
Lemma cols_ext g a k : (forall i, a <= i < a + k -> g i = false) -> flat_map (fun i => col d (site i) (base i) (g i)) (seq a k) = cols a k.
Proof. intros H. unfold cols. induction k as [|k IH] in a, H |- *; [reflexivity|]. cbn [seq flat_map]. rewrite H by lia. f_equal. apply IH. intros i Hi. apply H. lia. Qed.
Lemma norm_split r : norm (r + 2) = P0 r ++ (col d (site (S r)) (base (S r)) false ++ lastn (r + 2)).
Proof. unfold norm_net, strip, P0, first. cbn [fst snd]. replace (r + 2) with (S (S r)) by lia.
  change (flat_map (fun i => col d (site i) (base i) false) (seq 0 (S (S r)))) with (cols 0 (S (S r))).
  rewrite (cols_S 0 (S r)). cbn [plus]. rewrite <- !app_assoc. reflexivity. Qed.
Lemma P0_S r : P0 (S r) = P0 r ++ col d (site (S r)) (base (S r)) false.
Proof. unfold P0. rewrite (cols_S 0 (S r)), app_assoc. reflexivity. Qed.
Lemma P1_S op1 r : P1 op1 (S r) = P1 op1 r ++ col d (site (S r)) (base (S r)) false.
Proof. unfold P1. rewrite (cols_S 1 r), !app_assoc. reflexivity. Qed.
Lemma ends_mid r i : 1 <= i < 1 + r -> at_one_of [0; r + 2 - 1] i = false.
Proof. intros H. unfold at_one_of. cbn [existsb]. rewrite (proj2 (Nat.eqb_neq i 0)), (proj2 (Nat.eqb_neq i (r + 2 - 1))) by lia. reflexivity. Qed.
Definition opb (i : nat) (m : ten) : tensor K * list leg := (m, [V (brab i); V (ketb i)]).
Lemma corr_split r O1 O2 : corr (r + 2) O1 O2 =
  (first ++ (col d c (base 0) true ++ cols 1 r ++ col d (site (S r)) (base (S r)) true) ++ lastn (r + 2)) ++ [opb 0 O1; opb (S r) O2].
Proof. unfold corr_net, strip, first, opb, lastn. cbn [fst snd]. f_equal.
  2:{ do 2 f_equal. replace (r + 2 - 1) with (S r) by lia. reflexivity. }
  f_equal. f_equal. replace (r + 2) with (S (S r)) by lia. rewrite seq_S, flat_map_app. cbn [seq]. cbn [flat_map].
  replace (at_one_of [0; S (S r) - 1] 0) with true by reflexivity.
  replace (at_one_of [0; S (S r) - 1] (0 + S r)) with true.
  2:{ unfold at_one_of. cbn [existsb]. replace (S (S r) - 1) with (0 + S r) by lia. rewrite Nat.eqb_refl. cbn. now rewrite ?orb_true_r. }
  rewrite (cols_ext (at_one_of [0; S (S r) - 1]) 1 r).
  2:{ intros i Hi. replace (S (S r)) with (r + 2) by lia. now apply ends_mid. }
  cbn [plus along]. rewrite app_nil_r, <- !app_assoc. reflexivity. Qed.
Lemma P1_perm l r op1 op2 : Permutation ((scal l :: P1 op1 r) ++ col d (site (S r)) (base (S r)) true ++ [opf (S r) op2] ++ lastn (r + 2))
  (opf 0 op1 :: opf (S r) op2 :: scal l :: first ++ (col d c (base 0) true ++ cols 1 r ++ col d (site (S r)) (base (S r)) true) ++ lastn (r + 2)).
Proof. unfold P1.
  generalize first (col d c (base 0) true) (cols 1 r) (col d (site (S r)) (base (S r)) true) (lastn (r + 2)). intros F A B C L.
  cbn [app]. rewrite <- !app_assoc. cbn [app].
  transitivity (opf 0 op1 :: scal l :: F ++ A ++ B ++ C ++ opf (S r) op2 :: L).
  - transitivity (scal l :: opf 0 op1 :: F ++ A ++ B ++ C ++ opf (S r) op2 :: L); [|apply perm_swap]. constructor.
    rewrite (app_assoc F A). rewrite (app_assoc F A). symmetry. apply Permutation_middle.
  - constructor. transitivity (scal l :: opf (S r) op2 :: F ++ A ++ B ++ C ++ L); [|apply perm_swap]. constructor.
    replace (F ++ A ++ B ++ C ++ opf (S r) op2 :: L) with ((F ++ A ++ B ++ C) ++ opf (S r) op2 :: L) by now rewrite <- !app_assoc.
    replace (F ++ A ++ B ++ C ++ L) with ((F ++ A ++ B ++ C) ++ L) by now rewrite <- !app_assoc.
    symmetry. apply Permutation_middle. Qed.
Lemma corr_perm l r O1 O2 : Permutation (opb (S r) O2 :: opb 0 O1 :: scal l :: first ++ (col d c (base 0) true ++ cols 1 r ++ col d (site (S r)) (base (S r)) true) ++ lastn (r + 2))
  (scal l :: corr (r + 2) O1 O2).
Proof. rewrite corr_split. generalize (first ++ (col d c (base 0) true ++ cols 1 r ++ col d (site (S r)) (base (S r)) true) ++ lastn (r + 2)). intros N.
  transitivity (scal l :: [opb 0 O1; opb (S r) O2] ++ N); [|constructor; apply Permutation_app_comm].
  cbn [app]. transitivity (opb 0 O1 :: opb (S r) O2 :: scal l :: N); [apply perm_swap|]. transitivity (opb 0 O1 :: scal l :: opb (S r) O2 :: N); [constructor; apply perm_swap|apply perm_swap]. Qed.
Lemma fits_corr r O1 O2 : fits D (corr (r + 2) O1 O2) -> fits D (col d c (base 0) true) /\ fits D (col d (site (S r)) (base (S r)) true) /\ fits D (lastn (r + 2))
  /\ fits D [opb 0 O1] /\ fits D [opb (S r) O2] /\ fits D first.
Proof. rewrite corr_split. intros H. apply fits_app in H. destruct H as [H HO]. apply fits_app in H. destruct H as [Hf H]. apply fits_app in H. destruct H as [H HL].
  apply fits_app in H. destruct H as [H0 H]. apply fits_app in H. destruct H as [_ H1]. unfold fits in HO. apply Forall_cons_iff in HO. destruct HO as [HO1 HO].
  apply Forall_cons_iff in HO. destruct HO as [HO2 _]. repeat split; try assumption; constructor; try assumption; constructor. Qed.
Lemma fits_norm r : fits D (norm (r + 2)) -> fits D (col d c (base 0) false) /\ fits D (col d (site (S r)) (base (S r)) false) /\ fits D (lastn (r + 2)) /\ fits D first.
Proof. rewrite norm_split. intros H. apply fits_app in H. destruct H as [H0 H]. apply fits_app in H. destruct H as [H1 H2]. unfold P0 in H0. apply fits_app in H0. destruct H0 as [Hf H0].
  unfold cols in H0. cbn [seq flat_map] in H0. apply fits_app in H0. destruct H0 as [H0 _]. repeat split; assumption. Qed.

Lemma loop_ok op1 op1' op2 op2' : is_transpose op1 op1' -> (forall r, is_transpose (op2 r) (op2' r)) ->
  forall n r l E0 E1, l <> z -> good (S r) (scal l :: P0 r) E0 -> good (S r) (scal l :: P1 op1 r) E1 ->
  (forall k, r <= k < r + n -> fits D (norm (k + 2)) /\ fits D (corr (k + 2) op1' (op2' k)) /\ val (norm (k + 2)) <> z) ->
  corrf1_loop z o add mul cj st e div maxabs n r (site r) (dvec d) op2 rl2 E0 E1 =
  Ok (map (fun k => div (val (corr (k + 2) op1' (op2' k))) (val (norm (k + 2)))) (seq r n)).
Proof. intros HT1 HT2. induction n as [|n IH]; intros r l E0 E1 Hl HG0 HG1 HF; [reflexivity|].
  destruct (HF r) as (FN & FC & VN); [lia|]. destruct (fits_corr _ _ _ FC) as (_ & FA & FL & F1 & F2 & _). destruct (fits_norm _ FN) as (_ & FB & _ & _).
  cbn [corrf1_loop]. change (cadd (site r) (dvec d)) with (site (S r)).
  assert (F2' := transpose_fits _ _ (ketb (S r)) (brab (S r)) (HT2 r) F2).
  destruct (grow_op z o add mul cj SR st e As Cs Ts HS D d (site (S r)) (S r) _ _ (op2 r) HG1 FA F2') as (E12 & X12 & G12).
  destruct (grow z o add mul cj SR st e As Cs Ts HS D d (site (S r)) (S r) _ _ HG0 FB) as (E0' & X0 & G0').
  destruct (grow z o add mul cj SR st e As Cs Ts HS D d (site (S r)) (S r) _ _ HG1 FB) as (E1' & X1 & G1').
  rewrite X12; cbn [bind]. rewrite X0; cbn [bind]. rewrite X1; cbn [bind].
  assert (EL : lastn (r + 2) = last_edge Cs Ts rl2 d (site (S r)) (base (S (S r)))) by (unfold lastn; replace (r + 2) with (S (S r)) by lia; reflexivity).
  assert (FL' : fits D (last_edge Cs Ts rl2 d (site (S r)) (base (S (S r))))) by (rewrite <- EL; exact FL).
  destruct (close z o add mul cj SR st e As Cs Ts HS D d (site (S r)) (S (S r)) _ _ rl2 G12 FL') as (M12 & Y12 & _ & I12).
  destruct (close z o add mul cj SR st e As Cs Ts HS D d (site (S r)) (S (S r)) _ _ rl2 G0' FL') as (M00 & Y00 & L00 & I00).
  rewrite Y12; cbn [bind]. rewrite Y00; cbn [bind].
  rewrite <- EL in I12, I00, L00.
  (* the two numbers *)
  assert (V12 : isc (scal l :: corr (r + 2) op1' (op2' r)) [] M12).
  { rewrite <- !app_assoc in I12. apply (isc_perm z o add mul SR D _ _ _ _ (P1_perm l r op1 (op2 r))) in I12.
    apply (isc_perm z o add mul SR D _ _ _ _ (corr_perm l r op1' (op2' r))).
    unfold opb. apply (isc_swap (op2 r) (op2' r) [V (ketb (S r)); V (brab (S r))]).
    { apply transpose_releg; [apply HT2|]. apply fits_cons in F2. exact (proj2 (proj1 F2)). }
    { intros x; cbn; tauto. } { intros x; cbn; tauto. }
    apply (isc_perm z o add mul SR D _ _ _ _ (perm_swap _ _ _)). apply (isc_swap op1 op1' [V (ketb 0); V (brab 0)]).
    { apply transpose_releg; [exact HT1|]. apply fits_cons in F1. exact (proj2 (proj1 F1)). }
    { intros x; cbn; tauto. } { intros x; cbn; tauto. }
    exact I12. }
  assert (V00 : isc (scal l :: norm (r + 2)) [] M00).
  { rewrite norm_split. rewrite <- app_assoc in I00. exact I00. }
  rewrite (scalar_ok _ _ V12), (scalar_ok _ _ V00). cbn [bind].
  rewrite !(value_scal z o add mul SR).
  assert (Hm : maxabs E0' <> z).
  { apply (max_nonzero E0' (rim (base (S (S r)))) (lastn (r + 2))). intros H.
    assert (Y := isc_value z o add mul D _ _ L00). assert (Y' := isc_value z o add mul D _ _ V00). destruct Y as [_ Y]. destruct Y' as [_ Y'].
    rewrite Y in Y'. inv Y'. match goal with Q : val _ = val (scal l :: _) |- _ => rewrite H, (value_scal z o add mul SR) in Q; symmetry in Q; exact (mul_nonzero _ _ Hl VN Q) end. }
  rewrite (IH (S r) (mul (inv (maxabs E0')) l)).
  - cbn [bind seq map]. do 2 f_equal. field. split; assumption.
  - apply mul_nonzero; [apply inv_nonzero; exact Hm|exact Hl].
  - rewrite P0_S. apply good_rescale; [exact Hm|exact G0'].
  - rewrite P1_S. apply good_rescale; [exact Hm|exact G1'].
  - intros k Hk. apply HF. lia. Qed.

Lemma corrf_loop_start op1 op1' op2' : is_transpose op1 op1' -> fits D (norm 2) -> fits D (corr 2 op1' op2') ->
  exists E E1 E0, match rl1 with None => GE c (cneg (dvec d)) | Some f => Ok (f c) end = Ok E /\ TM c (dvec d) E (Some op1) = Ok E1 /\ TM c (dvec d) E None = Ok E0
  /\ good 1 (scal o :: P0 0) E0 /\ good 1 (scal o :: P1 op1 0) E1.
Proof. intros HT FN FC. destruct (fits_corr 0 _ _ FC) as (FA & _ & _ & F1 & _ & FF). destruct (fits_norm 0 FN) as (FB & _ & _ & _).
  assert (F1' := transpose_fits _ _ (ketb 0) (brab 0) HT F1).
  destruct (opening z o add mul cj SR st e As Cs Ts HS D d c rl1 FF) as (E & XE & GE').
  destruct (grow_op z o add mul cj SR st e As Cs Ts HS D d c 0 _ _ op1 GE' FA F1') as (E1 & X1 & G1).
  destruct (grow z o add mul cj SR st e As Cs Ts HS D d c 0 _ _ GE' FB) as (E0 & X0 & G0).
  exists E, E1, E0. split; [exact XE|]. split; [exact X1|]. split; [exact X0|]. split.
  - apply (good_scal_one z o add mul SR). unfold P0, cols. cbn [seq flat_map]. rewrite app_nil_r. exact G0.
  - apply (good_scal_one z o add mul SR). unfold P1, cols. cbn [seq flat_map]. rewrite app_nil_r. exact G1. Qed.
End P.

Section Main.
Context {K : Type} (z o : K) (add mul : K -> K -> K) (cj : K -> K) (sub : K -> K -> K) (opp : K -> K) (div : K -> K -> K) (inv : K -> K).
Hypothesis FT : field_theory z o add mul sub opp div inv eq.
Variable maxabs : tensor K -> K.
Hypothesis MA : forall t, maxabs t = z -> forall ix v, tget t ix = Some v -> v = z.
Variables (st : ipeps (tensor K)) (e : Ctm.envt (tensor K)) (As : coord -> tensor K) (Cs Ts : coord -> coord -> tensor K).
Hypothesis HS : sees st e As Cs Ts.
Lemma corrf_1sO1sO_ok D d c rl op1 op1' op2 op2' dist :
  let ends := (option_map fst rl, option_map snd rl) in
  let norm n := norm_net cj As Cs Ts ends d c n in
  let corr n r := corr_net cj As Cs Ts ends d c n op1' (op2' r) in
  let val := value D z o add mul in
  (0 <= dist)%Z -> is_transpose op1 op1' -> (forall r, is_transpose (op2 r) (op2' r)) ->
  (forall r, (Z.of_nat r <= dist)%Z -> fits D (norm (r + 2)) /\ fits D (corr (r + 2) r) /\ val (norm (r + 2)) <> z) ->
  corrf_1sO1sO z o add mul cj st e div maxabs c (dvec d) op1 op2 dist rl =
  Ok (map (fun r => div (val (corr (r + 2) r)) (val (norm (r + 2)))) (seq 0 (Z.to_nat (dist + 1)))).
Proof. cbn zeta. intros Hd HT1 HT2 HF. unfold corrf_1sO1sO.
  destruct (HF 0) as (FN & FC & _); [lia|]. destruct (corrf_loop_start z o add mul cj sub opp div inv FT st e As Cs Ts HS D _ _ d c op1 op1' _ HT1 FN FC) as (E & E1 & E0 & XE & X1 & X0 & G0 & G1).
  replace (match rl with None => get_edge z o add mul st e c (cneg (dvec d)) | Some f => Ok (fst f c) end) with (Ok E) by (rewrite <- XE; destruct rl; reflexivity).
  cbn [bind]. rewrite X1; cbn [bind]. rewrite X0; cbn [bind]. replace (dist + 1 <? 0)%Z with false by (symmetry; apply Z.ltb_ge; lia).
  assert (ON : o <> z) by exact (F_1_neq_0 FT).
  refine (loop_ok z o add mul cj sub opp div inv FT maxabs MA st e As Cs Ts HS D _ _ d c op1 op1' op2 op2' HT1 HT2 (Z.to_nat (dist + 1)) 0 o E0 E1 ON G0 G1 _).
  intros k Hk. apply HF. lia. Qed.
End Main.
