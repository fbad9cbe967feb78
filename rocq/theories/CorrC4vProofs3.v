(** Columns with two-site operators, and the edges as drawn. *)
From Verif Require Import Base BaseLemmas Tensor TensorLemmas Net NetSpec NetProofs NetProofs2 NetProofs3 NetTrace Corners CornersSpec CornersProofs Rdm RdmSpec RdmProofs RdmC4vProofs CorrSpec CorrC4v CorrC4vSpec CorrProofs CorrProofs3 CorrProofs4 CorrProofs5 CorrProofs6 CorrProofs7 CorrProofs8 NetEye CorrC4vProofs CorrC4vProofs2.
From Coq Require Import Ring ArithRing Field Permutation.
Open Scope list_scope.
Open Scope nat_scope.
Open Scope res_scope.

Section L.
Context {K : Type} (z o : K) (add mul : K -> K -> K) (cj : K -> K) (sub : K -> K -> K) (opp : K -> K) (div : K -> K -> K) (inv : K -> K).
Hypothesis FT : field_theory z o add mul sub opp div inv eq.
Notation SR := (SR_of_field FT).
Notation ten := (tensor K).
Variable svd : ten -> res (ten * list K * ten).
Hypothesis SV : svd_real z add mul cj svd.
Variables (C T a : ten).
Variable D : nat -> nat.
Hypothesis HD : forall k, D k <> 0.
Notation isc := (is_contraction D z o add mul).
Notation col := (column cj T a).
Definition square (op : ten) : Prop := exists p, p <> 0 /\ tdims op = [p; p; p; p].

Lemma setD_nonzero Dv k n : n <> 0 -> (forall q, Dv q <> 0) -> forall q, setD Dv k n q <> 0.
Proof. intros Hn H q. unfold setD. destruct (q =? k); [exact Hn|apply H]. Qed.
Lemma tm2_none E : fits D ((E, rims 1 0) :: col 1 0 false ++ col 1 32 false) ->
  exists M, tm2 z o add mul cj T a svd None E = Ok M /\ isc ((E, rims 1 0) :: col 1 0 false ++ col 1 32 false) (rims 1 64) M.
Proof. intros HF. set (D' := setD (setD (setD D 15 (D 14)) 47 (D 46)) 24 1).
  assert (HD' : forall k, D' k <> 0) by (repeat apply setD_nonzero; auto).
  assert (HA : size a 0 = D 14) by (expand HF; pieces HF; exact (f_equal (fun l => nth 0 l 0) (proj2 P1))).
  assert (HB : D 46 = D 14). { expand HF; pieces HF. transitivity (nth 0 (tdims a) 0); [exact (eq_sym (f_equal (fun l => nth 0 l 0) (proj2 P5)))|exact (f_equal (fun l => nth 0 l 0) (proj2 P1))]. }
  assert (HF' : fits D' ((E, rims 1 0) :: col 1 0 true ++ col 1 32 true ++ halves 0 32 0 0 (eye3 z o (D 14)) (eye3 z o (D 14)))).
  { expand HF. expand_goal. pieces HF. assemble; (split; [apply twf_tbuild|]); [reflexivity|]. cbn [fst snd map ldim].
    change [D' 46; D' 47; D' 24] with [D 46; D 46; 1]. rewrite HB. reflexivity. }
  destruct (tm2_with_ok z o add mul cj SR T a D' HD' _ _ _ HF') as (M & EM & IM). exists M. split.
  - unfold tm2. cbn [bind]. rewrite HA. exact EM.
  - apply (isc_ext z o add mul D' D); [in_list|].
    rewrite app_assoc, app_comm_cons in IM. apply (isc_perm z o add mul SR D' _ _ _ _ (Permutation_app_comm _ _)) in IM. cbn [halves app] in IM.
    apply (isc_eye3 z o add mul SR D' 14 15 24 (D 14)) in IM; [|reflexivity|reflexivity|reflexivity|discriminate|discriminate|discriminate|out_list|out_list|out_list|cbn; tauto].
    change (rnet (glue1 14 15) ((eye3 z o (D 14), [V (b_ket 32 0); V (b_bra 32 0); V (0 + 24)]) :: (E, rims 1 0) :: col 1 0 true ++ col 1 32 true))
      with ((eye3 z o (D 14), [V 46; V 47; V 24]) :: (E, rims 1 0) :: col 1 0 false ++ col 1 32 true) in IM.
    apply (isc_eye3 z o add mul SR D' 46 47 24 (D 14)) in IM; [exact IM|exact HB|exact HB|reflexivity|discriminate|discriminate|discriminate|out_list|out_list|out_list|cbn; tauto]. Qed.

(** an operator as its two halves *)
Lemma op_halves op O i j i' j' m : NoDup [i; j; i'; j'; m] -> square op -> real cj op -> is_transpose2 op O -> fits D [(O, [V j; V j'; V i; V i'])] ->
  exists l r L, split_op z o add mul svd op = Ok (l, r) /\ length (tdims op) = 4 /\ L <> 0 /\
  (let D' := setD D m L in fits D' [(l, [V i; V j; V m]); (r, [V i'; V j'; V m])] /\ fits D' [(O, [V j; V j'; V i; V i'])] /\
   is_contraction D' z o add mul [(l, [V i; V j; V m]); (r, [V i'; V j'; V m])] [V i; V i'; V j; V j'] op).
Proof. intros N (p & Hp & Ho) HR (W & W' & (d1 & d2 & d3 & d4 & Hd & Hd') & HT) HF.
  assert (HF0 := HF). apply fits_cons in HF. destruct HF as [[_ HF] _]. rewrite Ho in Hd. injection Hd as <- <- <- <-. rewrite Hd' in HF. cbn [map ldim] in HF. injection HF as D1 D2 D3 D4.
  destruct (split_ok z o add mul cj SR svd SV op p Hp W Ho HR) as (l & r & L & ES & HL & Wl & Wr & Dl & Dr & HV). exists l, r, L.
  assert (ND : i <> m /\ j <> m /\ i' <> m /\ j' <> m).
  { clear - N. repeat match goal with H : NoDup (_ :: _) |- _ => apply NoDup_cons_iff in H; destruct H as [? H] end. cbn in *. intuition. }
  destruct ND as (N1 & N2 & N3 & N4).
  split; [exact ES|]. split; [now rewrite Ho|]. split; [exact HL|]. cbn zeta.
  assert (X : setD D m L i = p /\ setD D m L j = p /\ setD D m L i' = p /\ setD D m L j' = p /\ setD D m L m = L).
  { rewrite setD_same, !setD_other by assumption. repeat split; congruence. }
  destruct X as (X1 & X2 & X3 & X4 & X5). split; [|split].
  - apply fits_cons. split; [|apply fits_cons; split; [|constructor]]; (split; [assumption|]); cbn [map ldim]; rewrite ?X1, ?X2, ?X3, ?X4, X5; assumption.
  - apply fits_cons. split; [|constructor]. split; [exact W'|]. cbn [map ldim]. rewrite X1, X2, X3, X4. exact Hd'.
  - apply (halves_isc z o add mul cj sub opp div inv FT D (setD D m L) op p l r i j i' j' m L N W Ho X1 X2 X3 X4 X5 HV). Qed.
Lemma tm2_some op O E : square op -> real cj op -> is_transpose2 op O -> fits D ((E, rims 1 0) :: col 1 0 true ++ col 1 32 true ++ [(O, [V 15; V 47; V 14; V 46])]) ->
  exists M, tm2 z o add mul cj T a svd (Some op) E = Ok M /\ isc ((E, rims 1 0) :: col 1 0 true ++ col 1 32 true ++ [(O, [V 15; V 47; V 14; V 46])]) (rims 1 64) M.
Proof. intros HQ HR HT HF. set (N0 := (E, rims 1 0) :: col 1 0 true ++ col 1 32 true).
  assert (EN : forall X : list (ten * list leg), (E, rims 1 0) :: col 1 0 true ++ col 1 32 true ++ X = N0 ++ X) by reflexivity. rewrite EN in *. apply fits_app in HF. destruct HF as [HF HO].
  assert (ND : NoDup [14; 15; 46; 47; 24]) by (repeat constructor; cbn; lia).
  destruct (op_halves op O 14 15 46 47 24 ND HQ HR HT HO) as (l & r & L & ES & H4 & HL & F1 & F2 & HC). set (D' := setD D 24 L) in *.
  assert (HD' : forall k, D' k <> 0) by (apply setD_nonzero; auto).
  assert (HF' : fits D' (N0 ++ [(l, [V 14; V 15; V 24]); (r, [V 46; V 47; V 24])])).
  { apply fits_app. split; [|exact F1]. unfold N0 in *. clear - HF. expand HF. expand_goal. pieces HF. assemble. }
  destruct (tm2_with_ok z o add mul cj SR T a D' HD' l r E HF') as (M & EM & IM). exists M. split.
  - unfold tm2. rewrite H4. cbn [Nat.eqb]. rewrite ES. exact EM.
  - apply (isc_ext z o add mul D' D); [unfold N0; in_list|].
    apply (unsplit z o add mul cj sub opp div inv FT D D' op O l r 14 15 46 47 24 N0 _ M ND HC HT F2); [unfold N0; out_list|out_list|exact IM]. Qed.
Lemma tm12_some op O E : square op -> real cj op -> is_transpose2 op O -> fits D ((E, rims 2 0) :: col 2 0 true ++ [(O, [V 15; V 17; V 14; V 16])]) ->
  exists M, tm1_2 z o add mul cj T a svd (Some op) E = Ok M /\ isc ((E, rims 2 0) :: col 2 0 true ++ [(O, [V 15; V 17; V 14; V 16])]) (rims 2 32) M.
Proof. intros HQ HR HT HF. set (N0 := (E, rims 2 0) :: col 2 0 true).
  assert (EN : forall X : list (ten * list leg), (E, rims 2 0) :: col 2 0 true ++ X = N0 ++ X) by reflexivity. rewrite EN in *. apply fits_app in HF. destruct HF as [HF HO].
  assert (ND : NoDup [14; 15; 16; 17; 24]) by (repeat constructor; cbn; lia).
  destruct (op_halves op O 14 15 16 17 24 ND HQ HR HT HO) as (l & r & L & ES & H4 & HL & F1 & F2 & HC). set (D' := setD D 24 L) in *.
  assert (HD' : forall k, D' k <> 0) by (apply setD_nonzero; auto).
  assert (HF' : fits D' (N0 ++ [(l, [V 14; V 15; V 24]); (r, [V 16; V 17; V 24])])).
  { apply fits_app. split; [|exact F1]. unfold N0 in *. clear - HF. expand HF. expand_goal. pieces HF. assemble. }
  destruct (tm12_with_ok z o add mul cj SR T a D' HD' l r E HF') as (M & EM & IM). exists M. split.
  - unfold tm1_2. rewrite H4. cbn [Nat.eqb]. rewrite ES. exact EM.
  - apply (isc_ext z o add mul D' D); [unfold N0; in_list|].
    apply (unsplit z o add mul cj sub opp div inv FT D D' op O l r 14 15 16 17 24 N0 _ M ND HC HT F2); [unfold N0; out_list|out_list|exact IM]. Qed.

(** ** Edges *)
Lemma isc_first (m m' : ten) ts ts' R1 R2 out M : isc [(m', ts')] ts m -> incl (flat_map bonds ts) (flat_map bonds ts') -> incl (flat_map bonds ts') (flat_map bonds ts) ->
  isc (R1 ++ (m, ts) :: R2) out M -> isc (R1 ++ (m', ts') :: R2) out M.
Proof. intros H1 I1 I2 H2. apply (isc_perm z o add mul SR D _ _ _ _ (Permutation_middle R1 R2 _)).
  apply (isc_swap z o add mul sub opp div inv FT D m m' ts ts' (R1 ++ R2) out M H1 I1 I2). revert H2. apply (isc_perm z o add mul SR D). symmetry. apply Permutation_middle. Qed.
Lemma sym_releg x y : is_transpose C C -> tdims C = [D x; D y] -> isc [(C, [V x; V y])] [V y; V x] C.
Proof. intros H. apply (transpose_releg z o add mul cj sub opp div inv FT D C C y x H). Qed.
Lemma sym_fits x y : is_transpose C C -> fits D [(C, [V x; V y])] -> fits D [(C, [V y; V x])].
Proof. intros H. apply (transpose_fits D C C y x H). Qed.
Lemma refl_dims T' x y t : is_reflection T T' -> tdims T = [D x; D y; ldim D t] -> tdims T' = [D y; D x; ldim D t].
Proof. intros (W & _ & (d1 & d2 & d3 & Hd & Hd') & _) H. congruence. Qed.
Lemma refl_releg T' x y t : is_reflection T T' -> tdims T = [D x; D y; ldim D t] -> isc [(T, [V x; V y; t])] [V y; V x; t] T'.
Proof. intros HT Hd. assert (E := refl_dims T' x y t HT Hd). destruct HT as (W & W' & _ & HV).
  apply (isc_releg z o add mul sub opp div inv FT D); [exact W'|exact E|intros q; cbn; rewrite app_nil_r; tauto|].
  intros s Hs. cbn [map lval]. rewrite HV. unfold entry. destruct (tget_Some T [s x; s y; lval D s t]) as [v Hv]; [exact W| |now rewrite Hv].
  rewrite Hd. constructor; [apply Hs; cbn; tauto|]. constructor; [apply Hs; cbn; tauto|]. constructor; [|constructor]. apply lval_range. intros k Hk. apply Hs. cbn. rewrite app_nil_r. tauto. Qed.
Lemma edge_drawn : is_transpose C C -> fits D (left_end C T 1 32) -> exists M, edge z o add mul C T = Ok M /\ isc (left_end C T 1 32) (rims 1 32) M.
Proof. intros HC HF. expand HF. pieces HF. assert (P1' : fits D [(C, [V 33; V 1])]) by (assemble). assert (Q := sym_fits 33 1 HC P1').
  destruct (edge_ok z o add mul SR C T D) as (M & EM & IM). { expand_goal. assemble. apply fits_cons in Q. exact (proj1 Q). }
  exists M. split; [exact EM|]. apply (isc_first C C [V 1; V 33] [V 33; V 1] [(C, [V 0; V 32]); (T, [V 0; V 1; FF 34 35])] []); [|intros q; cbn; tauto|intros q; cbn; tauto|exact IM].
  apply sym_releg; [exact HC|]. exact (proj2 P1). Qed.

Lemma refl_fits T' x y t : is_reflection T T' -> fits D [(T, [V x; V y; t])] -> fits D [(T', [V y; V x; t])].
Proof. intros HT HF. apply fits_cons in HF. destruct HF as [[W Hd] _]. cbn [map ldim] in Hd. assert (E := refl_dims T' x y t HT Hd). apply fits_cons. split; [|constructor]. split; [exact (proj1 (proj2 HT))|exact E]. Qed.
Lemma fits_one (m : ten) ts : twf (fst (m, ts)) /\ tdims (fst (m, ts)) = map (ldim D) (snd (m, ts)) -> fits D [(m, ts)].
Proof. intros H. apply fits_cons. split; [exact H|constructor]. Qed.
Lemma edge2_drawn T' : is_transpose C C -> is_reflection T T' -> fits D (left_end C T 2 32) -> exists M, edge_L z o add mul C T' 2 = Ok M /\ isc (left_end C T 2 32) (rims 2 32) M.
Proof. intros HC HT HF. expand HF. pieces HF.
  assert (Q := proj1 (proj1 (fits_cons D _ _ _) (sym_fits 0 32 HC (fits_one _ _ P)))).
  assert (Q0 := proj1 (proj1 (fits_cons D _ _ _) (refl_fits T' 0 1 _ HT (fits_one _ _ P0)))).
  assert (Q1 := proj1 (proj1 (fits_cons D _ _ _) (refl_fits T' 1 2 _ HT (fits_one _ _ P1)))).
  assert (Q2 := proj1 (proj1 (fits_cons D _ _ _) (sym_fits 33 2 HC (fits_one _ _ P2)))).
  destruct (edge2_ok z o add mul SR C T' D) as (M & EM & IM). { expand_goal. assemble. }
  exists M. split; [exact EM|]. unfold edge2_raw in IM.
  apply (isc_first C C [V 32; V 0] [V 0; V 32] [] _) in IM; [|apply sym_releg; [exact HC|exact (proj2 P)]|intros q; cbn; tauto|intros q; cbn; tauto].
  apply (isc_first T' T [V 1; V 0; FF 34 35] [V 0; V 1; FF 34 35] [_] _) in IM; [|apply refl_releg; [exact HT|exact (proj2 P0)]|intros q; cbn; tauto|intros q; cbn; tauto].
  apply (isc_first T' T [V 2; V 1; FF 36 37] [V 1; V 2; FF 36 37] [_; _] _) in IM; [|apply refl_releg; [exact HT|exact (proj2 P1)]|intros q; cbn; tauto|intros q; cbn; tauto].
  apply (isc_first C C [V 2; V 33] [V 33; V 2] [_; _; _] _) in IM; [|apply sym_releg; [exact HC|exact (proj2 P2)]|intros q; cbn; tauto|intros q; cbn; tauto].
  exact IM. Qed.
Lemma close2_drawn T' E : is_transpose C C -> is_reflection T T' -> fits D ((E, rims 2 0) :: right_end C T 2 0) ->
  exists M, close_edge_L z o add mul C T' E = Ok M /\ isc ((E, rims 2 0) :: right_end C T 2 0) [] M.
Proof. intros HC HT HF. expand HF. pieces HF.
  assert (Q := proj1 (proj1 (fits_cons D _ _ _) (sym_fits 0 18 HC (fits_one _ _ P0)))).
  assert (Q0 := proj1 (proj1 (fits_cons D _ _ _) (refl_fits T' 19 18 _ HT (fits_one _ _ P1)))).
  assert (Q1 := proj1 (proj1 (fits_cons D _ _ _) (refl_fits T' 20 19 _ HT (fits_one _ _ P2)))).
  assert (Q2 := proj1 (proj1 (fits_cons D _ _ _) (sym_fits 20 1 HC (fits_one _ _ P3)))).
  destruct (close2_ok z o add mul SR C T' D E) as (M & EM & IM). { expand_goal. assemble. }
  exists M. split; [exact EM|]. unfold close2_raw in IM.
  apply (isc_perm z o add mul SR D _ _ _ _ (perm_skip _ (Permutation_rev _))) in IM. cbn [rev app] in IM.
  apply (isc_first C C [V 18; V 0] [V 0; V 18] [_] _) in IM; [|apply sym_releg; [exact HC|exact (proj2 P0)]|intros q; cbn; tauto|intros q; cbn; tauto].
  apply (isc_first T' T [V 18; V 19; FF 2 3] [V 19; V 18; FF 2 3] [_; _] _) in IM; [|apply refl_releg; [exact HT|exact (proj2 P1)]|intros q; cbn; tauto|intros q; cbn; tauto].
  apply (isc_first T' T [V 19; V 20; FF 4 5] [V 20; V 19; FF 4 5] [_; _; _] _) in IM; [|apply refl_releg; [exact HT|exact (proj2 P2)]|intros q; cbn; tauto|intros q; cbn; tauto].
  apply (isc_first C C [V 1; V 20] [V 20; V 1] [_; _; _; _] _) in IM; [|apply sym_releg; [exact HC|exact (proj2 P3)]|intros q; cbn; tauto|intros q; cbn; tauto].
  exact IM. Qed.
End L.
