From Verif Require Import Base BaseLemmas Lattice LatticeSpec Tensor TensorLemmas CtmSpec Net NetSpec NetProofs Weights WeightsSpec WeightsProofs WeightsProofs2.
From Coq Require Import Ring Permutation.
Open Scope Z_scope.
Open Scope list_scope.
Open Scope res_scope.

Lemma bond_up v : bond_of v (0, -1) = ((fst v, snd v - 1), true).
Proof. reflexivity. Qed.
Lemma bond_left v : bond_of v (-1, 0) = ((fst v - 1, snd v), false).
Proof. reflexivity. Qed.
Lemma bond_down v : bond_of v (0, 1) = (v, true).
Proof. reflexivity. Qed.
Lemma bond_right v : bond_of v (1, 0) = (v, false).
Proof. reflexivity. Qed.
Lemma bond_partner v d : In d four -> bond_of (cadd v d) (cneg d) = bond_of v d.
Proof. destruct v as [x y]. intros [<-|[<-|[<-|[<-|[]]]]]; unfold cneg; cbn [fst snd Z.opp];
  rewrite ?bond_up, ?bond_left, ?bond_down, ?bond_right; unfold cadd; cbn [fst snd]; f_equal; f_equal; lia. Qed.

Lemma inside_spec ps v : inside ps v = true <-> In v ps.
Proof. unfold inside. destruct (in_dec eq_dec v ps); split; intros; congruence || assumption. Qed.

Definition halves (ps : list coord) : list (coord * coord) := flat_map (fun v => map (fun d => (v, d)) four) ps.
Lemma In_halves ps v d : In (v, d) (halves ps) <-> In v ps /\ In d four.
Proof. unfold halves. rewrite in_flat_map. split.
  - intros (u & Hu & Hd). apply in_map_iff in Hd. destruct Hd as (e & E & He). injection E as -> ->. auto.
  - intros [A B]. exists v. split; [exact A|]. now apply in_map. Qed.
Lemma NoDup_four : NoDup four.
Proof. unfold four. repeat constructor; cbn; intuition discriminate. Qed.
Lemma NoDup_flat_pairs (ds : list coord) ps : NoDup ds -> NoDup ps -> NoDup (flat_map (fun v : coord => map (fun d => (v, d)) ds) ps).
Proof. intros Nd. induction ps as [|v ps IH]; cbn; intros N; [constructor|]. inversion N; subst. apply NoDup_app_intro.
  - apply NoDup_map_inj; [|exact Nd]. congruence.
  - now apply IH.
  - intros [a b] X Y. apply in_map_iff in X. destruct X as (e & E & _). injection E as <- <-.
    apply in_flat_map in Y. destruct Y as (u & Hu & Y). apply in_map_iff in Y. destruct Y as (e' & E & _). injection E as -> _. contradiction. Qed.

Definition other (w : coord * coord) : coord * coord := (cadd (fst w) (snd w), cneg (snd w)).
Lemma In_inner ps v d : In (v, d) (inner_bonds ps) <-> In v ps /\ In (cadd v d) ps /\ (d = (0, 1) \/ d = (1, 0)).
Proof. unfold inner_bonds. rewrite filter_In, in_flat_map. cbn [fst snd]. rewrite inside_spec. split.
  - intros [(u & Hu & Hd) X]. cbn in Hd. destruct Hd as [E|[E|[]]]; injection E as <- <-; auto.
  - intros (A & B & C). split; [|exact B]. exists v. split; [exact A|]. cbn. destruct C as [-> | ->]; tauto. Qed.
Lemma halves_split ps : NoDup ps -> Permutation (halves ps) ((inner_bonds ps ++ map other (inner_bonds ps)) ++ outer_bonds ps).
Proof. intros N.
  assert (NI : NoDup (inner_bonds ps)).
  { unfold inner_bonds. apply NoDup_filter. change (fun v : coord => [(v, (0, 1)); (v, (1, 0))]) with (fun v : coord => map (fun d : coord => (v, d)) [(0, 1); (1, 0)]).
    apply NoDup_flat_pairs; [|exact N]. repeat constructor; cbn; intuition discriminate. }
  apply NoDup_Permutation.
  - apply NoDup_flat_pairs; [apply NoDup_four|exact N].
  - apply NoDup_app_intro; [apply NoDup_app_intro| |].
    + exact NI.
    + apply NoDup_map_inj; [|exact NI]. intros [[a1 a2] [b1 b2]] [[c1 c2] [e1 e2]] _ _ E. unfold other, cadd, cneg in E. cbn [fst snd] in E. injection E as E1 E2 E3 E4.
      f_equal; f_equal; lia.
    + intros [v d] X Y. apply In_inner in X. apply in_map_iff in Y. destruct Y as ([u e] & E & Y). apply In_inner in Y.
      unfold other in E. cbn in E. injection E as _ E. destruct X as (_ & _ & [-> | ->]), Y as (_ & _ & [-> | ->]); discriminate.
    + apply NoDup_filter, NoDup_flat_pairs; [apply NoDup_four|exact N].
    + intros [v d] X Y. unfold outer_bonds in Y. apply filter_In in Y. destruct Y as [_ Y]. cbn in Y. apply negb_true_iff in Y.
      assert (Z : inside ps (cadd v d) = true); [|congruence]. apply inside_spec. apply in_app_iff in X. destruct X as [X|X].
      * now apply In_inner in X.
      * apply in_map_iff in X. destruct X as ([u e] & E & X). apply In_inner in X. unfold other in E. cbn [fst snd] in E. injection E as <- <-. 
        rewrite cadd_neg. tauto.
  - intros [v d]. rewrite In_halves, !in_app_iff, In_inner, in_map_iff. unfold outer_bonds. fold (halves ps). rewrite filter_In, In_halves. cbn [fst snd].
    split.
    + intros [A B]. destruct (inside ps (cadd v d)) eqn:E; [|right; split; [tauto|reflexivity]]. left. apply inside_spec in E.
      destruct B as [<-|[<-|[<-|[<-|[]]]]].
      * right. exists (cadd v (0, -1), (0, 1)). split; [destruct v as [v1 v2]; unfold other, cadd, cneg; cbn [fst snd]; f_equal; f_equal; lia|]. apply In_inner.
        split; [exact E|]. split; [|tauto]. replace (cadd (cadd v (0, -1)) (0, 1)) with v; [exact A|]. destruct v as [v1 v2]; unfold cadd; cbn [fst snd]; f_equal; lia.
      * right. exists (cadd v (-1, 0), (1, 0)). split; [destruct v as [v1 v2]; unfold other, cadd, cneg; cbn [fst snd]; f_equal; f_equal; lia|]. apply In_inner.
        split; [exact E|]. split; [|tauto]. replace (cadd (cadd v (-1, 0)) (1, 0)) with v; [exact A|]. destruct v as [v1 v2]; unfold cadd; cbn [fst snd]; f_equal; lia.
      * left. tauto.
      * left. tauto.
    + intros [[X|([u e] & E & X)]|[X _]]; [|apply In_inner in X; unfold other in E; cbn [fst snd] in E; injection E as <- <-|exact X].
      * destruct X as (A & _ & [-> | ->]); (split; [exact A|cbn; tauto]).
      * destruct X as (A & B & C). split; [exact B|]. apply four_neg. destruct C as [-> | ->]; cbn; tauto. Qed.

Section Patch.
Context {K : Type} (z o : K) (add mul : K -> K -> K).
Hypothesis SR : semi_ring_theory z o add mul eq.
Add Ring Kring2 : SR.
Notation times := (times o mul).

Lemma times_app l1 l2 : times (l1 ++ l2) = mul (times l1) (times l2).
Proof. exact (pl_app z o add mul SR l1 l2). Qed.
Lemma times_perm l1 l2 : Permutation l1 l2 -> times l1 = times l2.
Proof. exact (pl_perm z o add mul SR l1 l2). Qed.
Lemma times_mul {A} (g h : A -> K) l : times (map (fun a => mul (g a) (h a)) l) = mul (times (map g l)) (times (map h l)).
Proof. unfold WeightsSpec.times. induction l as [|a l IH]; cbn; [ring|rewrite IH; ring]. Qed.
Lemma times_flat {A B} (g : B -> K) (h : A -> list B) l : times (map g (flat_map h l)) = times (map (fun a => times (map g (h a))) l).
Proof. induction l as [|a l IH]; cbn [flat_map map]; [reflexivity|]. rewrite map_app, times_app, IH. reflexivity. Qed.

(** the square roots at all ends of bonds of a patch *)
Lemma patch_weights (w : coord -> coord -> nat -> K) (sq : K -> K) (s : bond -> nat) ps : NoDup ps ->
  (forall v d i, In d four -> w (cadd v d) (cneg d) i = w v d i) -> (forall v d i, mul (sq (w v d i)) (sq (w v d i)) = w v d i) ->
  times (map (fun v => times (map (fun d => sq (w v d (s (bond_of v d)))) four)) ps)
  = mul (times (map (fun vd => w (fst vd) (snd vd) (s (bond_of (fst vd) (snd vd)))) (inner_bonds ps)))
        (times (map (fun vd => sq (w (fst vd) (snd vd) (s (bond_of (fst vd) (snd vd))))) (outer_bonds ps))).
Proof. intros N HP HQ. set (g := fun vd : coord * coord => sq (w (fst vd) (snd vd) (s (bond_of (fst vd) (snd vd))))).
  transitivity (times (map g (halves ps))).
  { unfold halves. rewrite times_flat. f_equal. }
  rewrite (times_perm _ (map g ((inner_bonds ps ++ map other (inner_bonds ps)) ++ outer_bonds ps))) by (apply Permutation_map, halves_split, N).
  rewrite !map_app, !times_app. f_equal. rewrite map_map, <- times_mul. f_equal. apply map_ext_in. intros [v d] Hv.
  apply In_inner in Hv. assert (Hd : In d four) by (destruct Hv as (_ & _ & [-> | ->]); cbn; tauto).
  unfold g, other. cbn [fst snd]. rewrite bond_partner, HP by exact Hd. apply HQ. Qed.
End Patch.

Section Main.
Context {K : Type} (z o : K) (add mul : K -> K -> K).
Hypothesis SR : semi_ring_theory z o add mul eq.
Add Ring Kring3 : SR.
Notation times := (times o mul).
Notation at_ := (at_ z).

Lemma state_dims (st : ipeps (tensor K)) sites f : is_state st sites f -> (forall k t, In (k, t) sites -> length (tdims t) = 5%nat) ->
  forall v d, In d four -> exists A, ipeps_site st v = Ok A /\ nth_error (tdims A) (leg_of d) = Some (dim sites (f v) d).
Proof. intros HS H5 v d Hd. destruct (site_dim st sites f HS H5 (f v) d) as (t & Et & Es); [apply HS|exact Hd|].
  exists t. split.
  - destruct HS as (E1 & E2 & HN & HT & HF & HC). unfold ipeps_site in *. rewrite E1 in *. rewrite !E2 in *. cbn in *. now rewrite (HF (f v) (HT v)) in Et.
  - unfold tsize in Es. destruct (nth_error _ _); [congruence|discriminate]. Qed.

Lemma rank5_sites (st : ipeps (tensor K)) sites f : is_state st sites f -> rank5 st -> forall k t, In (k, t) sites -> length (tdims t) = 5%nat.
Proof. intros (E1 & E2 & HN & HT & HF & HC) R k t Hk. apply (R k). unfold ipeps_site. rewrite E1, E2. cbn.
  assert (X : In k (dkeys sites)) by (unfold dkeys; change k with (fst (k, t)); now apply in_map).
  rewrite (HF k X). unfold dget_exn. now rewrite (In_dget sites k t HN Hk). Qed.

Lemma match_ok (st : ipeps (tensor K)) sites f : is_state st sites f -> rank5 st -> bonds_match st <-> forall w, good sites w -> okpair sites f w.
Proof. intros HS R. assert (H5 := rank5_sites st sites f HS R). split.
  - intros HM [k d] [Hk Hd]. unfold okpair, partner. cbn [fst snd] in *.
    destruct (state_dims st sites f HS H5 k d Hd) as (A & EA & DA).
    destruct (state_dims st sites f HS H5 (cadd k d) (cneg d) (four_neg d Hd)) as (B & EB & DB).
    assert (X := HM k d A B Hd EA EB). rewrite DA, DB in X. injection X as X.
    destruct HS as (E1 & E2 & HN & HT & HF & HC). rewrite (HF k Hk) in X. exact X.
  - intros HM v d A B Hd EA EB.
    destruct (state_dims st sites f HS H5 v d Hd) as (A' & EA' & DA). rewrite EA in EA'. injection EA' as <-.
    destruct (state_dims st sites f HS H5 (cadd v d) (cneg d) (four_neg d Hd)) as (B' & EB' & DB). rewrite EB in EB'. injection EB' as <-.
    rewrite DA, DB. f_equal. destruct HS as (E1 & E2 & HN & HT & HF & HC).
    assert (G : good sites (f v, d)) by (split; [apply HT|exact Hd]). assert (X := HM _ G). unfold okpair, partner in X. cbn [fst snd] in X.
    rewrite X. f_equal. apply HC, HF, HT. Qed.

Lemma eye_id (n : nat) : id_matrix z o n (eye z o n).
Proof. split; [apply twf_tbuild|]. split; [reflexivity|]. intros i j Hi Hj. unfold eye. rewrite tget_tbuild; [reflexivity|].
  repeat constructor; assumption. Qed.

Lemma generate_ok (st : ipeps (tensor K)) sites f : is_state st sites f -> rank5 st -> bonds_match st ->
  exists ws, generate_weights z o st = Ok ws /\
    (forall k d, In (k, d) (dkeys ws) <-> In k (dkeys sites) /\ In d four) /\ NoDup (dkeys ws) /\
    forall v d, In d four -> exists W, weight st ws (v, d) = Ok W /\ weight st ws (cadd v d, cneg d) = Ok W /\
      forall A n, ipeps_site st v = Ok A -> nth_error (tdims A) (leg_of d) = Some n -> id_matrix z o n W.
Proof. intros HS R HM. assert (H5 := rank5_sites st sites f HS R). assert (OK := proj1 (match_ok st sites f HS R) HM).
  destruct (generated z o st sites f HS H5 OK) as (ws & E & N & Keys & V).
  exists ws. split; [exact E|]. split; [intros k d; apply (Keys (k, d))|]. split; [exact N|].
  intros v d Hd. exists (eye z o (dim sites (f v) d)). assert (HT : forall u, In (f u) (dkeys sites)) by apply HS.
  rewrite !(weight_at st sites f HS) by (exact Hd || now apply four_neg). unfold dget_exn.
  rewrite !V by (apply HT || exact Hd || now apply four_neg). split; [reflexivity|]. split.
  - assert (G : good sites (f v, d)) by (split; [apply HT|exact Hd]). assert (X := OK _ G). unfold okpair, partner in X. cbn [fst snd] in X.
    rewrite X. do 3 f_equal. symmetry. destruct HS as (E1 & E2 & HN & HT' & HF & HC). apply HC, HF, HT'.
  - intros A n EA Dn. destruct (state_dims st sites f HS H5 v d Hd) as (A' & EA' & DA). rewrite EA in EA'. injection EA' as <-.
    rewrite DA in Dn. injection Dn as <-. apply eye_id. Qed.

Lemma generate_rejects (st : ipeps (tensor K)) sites f : is_state st sites f -> rank5 st -> ~ bonds_match st -> generate_weights z o st = Err AssertionError.
Proof. intros HS R HM. assert (H5 := rank5_sites st sites f HS R). apply (rejected z o st sites f HS H5).
  destruct (Exists_dec (fun w => ~ okpair sites f w) (halves (dkeys sites))) as [X|X].
  - intros w. unfold okpair. destruct (Nat.eq_dec (dim sites (fst w) (snd w)) (dim sites (fst (partner f w)) (snd (partner f w)))); [right; tauto|now left].
  - apply Exists_exists in X. destruct X as ([k d] & Hw & Hn). apply In_halves in Hw. exists (k, d). split; [exact Hw|exact Hn].
  - exfalso. apply HM, (match_ok st sites f HS R). intros [k d] G.
    destruct (Nat.eq_dec (dim sites k d) (dim sites (fst (partner f (k, d))) (snd (partner f (k, d))))) as [Y|Y]; [exact Y|].
    exfalso. apply X, Exists_exists. exists (k, d). split; [now apply In_halves|]. exact Y. Qed.

Lemma combine_map_l {A B C} (g : A -> B -> C) (s : A -> B) l : map (fun p => g (fst p) (snd p)) (combine l (map s l)) = map (fun a => g a (s a)) l.
Proof. induction l as [|a l IH]; cbn; [reflexivity|now rewrite IH]. Qed.

Lemma absorb_patch (st : ipeps (tensor K)) sites f ws sq w : is_state st sites f -> sq z = z -> rank5 st ->
  (forall v d A n, In d four -> ipeps_site st v = Ok A -> nth_error (tdims A) (leg_of d) = Some n ->
     exists W, weight st ws (v, d) = Ok W /\ is_diag z n (w v d) W) ->
  (forall v d i, In d four -> w (cadd v d) (cneg d) i = w v d i) -> (forall v d i, mul (sq (w v d i)) (sq (w v d i)) = w v d i) ->
  exists st', absorb_weights z o add mul sq st ws = Ok st' /\
    i_lX st' = i_lX st /\ i_lY st' = i_lY st /\ (forall v, i_v2s st' v = i_v2s st v) /\
    forall (As Ms : coord -> tensor K), (forall v, ipeps_site st v = Ok (As v)) -> (forall v, ipeps_site st' v = Ok (Ms v)) ->
    (forall v, twf (Ms v) /\ tdims (Ms v) = tdims (As v)) /\
    forall ps s p, NoDup ps -> (forall v, In v ps -> in_range (tdims (As v)) (index s p v)) ->
      times (map (fun v => at_ (Ms v) (index s p v)) ps)
      = mul (times (map (fun v => at_ (As v) (index s p v)) ps))
            (mul (times (map (fun vd => w (fst vd) (snd vd) (s (bond_of (fst vd) (snd vd)))) (inner_bonds ps)))
                 (times (map (fun vd => sq (w (fst vd) (snd vd) (s (bond_of (fst vd) (snd vd))))) (outer_bonds ps)))).
Proof. intros HS H0 R HW HP HQ. assert (H5 := rank5_sites st sites f HS R).
  set (n := fun v d => dim sites (f v) d).
  set (pd := fun v => match ipeps_site st v with Ok A => nth 0 (tdims A) 0%nat | Err _ => 0%nat end).
  destruct (absorb_ok z o add mul SR sq H0 st sites f ws HS n pd w) as (st' & E & E1 & E2 & E3 & V).
  { intros v. destruct (state_dims st sites f HS H5 v (0, -1)) as (A & EA & D1); [cbn; tauto|]. exists A. split; [exact EA|].
    assert (L := R v A EA). unfold pd. rewrite EA. cbn [four map]. 
    assert (Q : forall d, In d four -> nth_error (tdims A) (leg_of d) = Some (n v d)).
    { intros d Hd. destruct (state_dims st sites f HS H5 v d Hd) as (A' & EA' & D'). rewrite EA in EA'. injection EA' as <-. exact D'. }
    assert (Q1 := Q (0, -1) ltac:(cbn; tauto)). assert (Q2 := Q (-1, 0) ltac:(cbn; tauto)). assert (Q3 := Q (0, 1) ltac:(cbn; tauto)). assert (Q4 := Q (1, 0) ltac:(cbn; tauto)).
    destruct (tdims A) as [|a0 [|a1 [|a2 [|a3 [|a4 [|? ?]]]]]]; try discriminate L.
    cbn in Q1, Q2, Q3, Q4. injection Q1 as ->. injection Q2 as ->. injection Q3 as ->. injection Q4 as ->. reflexivity. }
  { intros v d Hd. destruct (state_dims st sites f HS H5 v d Hd) as (A & EA & D1). exact (HW v d A _ Hd EA D1). }
  exists st'. split; [exact E|]. split; [exact E1|]. split; [exact E2|]. split; [exact E3|].
  intros As Ms HA HM. split.
  { intros v. destruct (V v (As v) (HA v)) as (M & EM & X1 & X2 & _). rewrite HM in EM. injection EM as <-. auto. }
  intros ps s p N Hr.
  rewrite <- (patch_weights z o add mul SR w sq s ps N HP HQ). rewrite <- (times_mul z o add mul SR). f_equal.
  apply map_ext_in. intros v Hv. destruct (V v (As v) (HA v)) as (M & EM & _ & _ & X). rewrite HM in EM. injection EM as <-.
  unfold WeightsSpec.at_ at 1. rewrite (X _ (Hr v Hv)). reflexivity. Qed.
End Main.
