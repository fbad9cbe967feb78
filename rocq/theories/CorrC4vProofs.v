(** One transfer matrix and the edges of the C4v environment. *)
From Verif Require Import Base BaseLemmas Tensor TensorLemmas Net NetSpec NetProofs NetProofs2 NetProofs3 Corners CornersSpec CornersProofs Rdm RdmSpec RdmProofs RdmC4vProofs CorrSpec CorrC4v CorrC4vSpec CorrProofs.
From Coq Require Import Ring ArithRing Permutation.
Open Scope list_scope.
Open Scope nat_scope.
Open Scope res_scope.

Lemma rep_same {K} (z o : K) add mul D env S S' M : rep z o add mul D env S M -> rep z o add mul D env S' M -> map (ldim D) (s_out S) = map (ldim D) (s_out S').
Proof. intros (_ & E & _) (_ & E' & _). congruence. Qed.
Ltac same_dims Q Q' := let EQ := fresh "EQ" in pose proof (rep_same _ _ _ _ _ _ _ _ _ Q Q') as EQ; cbv [map ldim s_out] in EQ; injection EQ; clear EQ; intros.

Section P.
Context {K : Type} (z o : K) (add mul : K -> K -> K) (cj : K -> K).
Hypothesis SR : semi_ring_theory z o add mul eq.
Notation ten := (tensor K).
Notation contract := (tensordot z o add mul).
Variables (C T a : ten).
Variable D : nat -> nat.
Notation isc := (is_contraction D z o add mul).
Notation col := (column cj T a).
Ltac opn HF := expand_net HF; leaves SR HF; conj_dims_all HF cj.

(** the steps of tm1 *)
Definition tm_with (X E : ten) : res ten :=
  x <- contract E T [0] [1] ;;
  A <- layer2 z o add mul cj a X ;;
  x <- contract x A [0;3] [1;0] ;;
  contract x T [0;2] [0;2].
Definition xleg (b j : nat) (X : ten) : tensor K * list leg := (X, [V (b_ket b j); V (b_bra b j)]).
Lemma tm_with_ok X E : fits D ((E, rims 1 0) :: col 1 0 true ++ [xleg 0 0 X]) ->
  exists M, tm_with X E = Ok M /\ isc ((E, rims 1 0) :: col 1 0 true ++ [xleg 0 0 X]) (rims 1 32) M.
Proof. intros HF. expand_net HF; leaves SR HF; conj_eqs HF cj a 2 3. singleE SR; [unfold tm_with, layer2, dims2;
  step ltac:(dot2 SR Q Q0); step ltac:(step ltac:(cein SR); cviewe [FF 8 9; FF 2 3; FF 10 11; FF 34 35]);
  step ltac:(cdot SR); dotr SR Q3|check|reflexivity]. Qed.

(** two columns *)
Hypothesis HD : forall k, D k <> 0.
Definition halves (b b' j j' : nat) (l r : ten) : @network K :=
  [(l, [V (b_ket b j); V (b_bra b j); V (b + 24)]); (r, [V (b_ket b' j'); V (b_bra b' j'); V (b + 24)])].
Definition tm2_with (l r E : ten) : res ten :=
  x <- contract E T [0] [1] ;;
  A <- layer3 z o add mul cj a l ;;
  x <- contract x A [0;3] [1;0] ;;
  x <- contract x T [0;2] [0;2] ;;
  x <- contract x T [0] [1] ;;
  A <- layer3 z o add mul cj a r ;;
  x <- contract x A [0;1;4] [1;4;0] ;;
  contract x T [0;2] [0;2].
Ltac ein3 SR H1 H2 H3 := idtac; eapply (rep_einsum _ _ _ _ SR); [apply Forall2_cons; [exact H1|apply Forall2_cons; [exact H2|apply Forall2_cons; [exact H3|apply Forall2_nil]]]|cbn [map snd]; calc_some].
Ltac rdq := repeat match goal with
  | |- context [size ?X ?k] => match goal with H : rep _ _ _ _ _ _ _ X |- _ => rewrite (size_rep _ _ _ _ _ _ _ _ H k) end end;
  cbn [nth map ldim s_out Nat.pow FF]; repeat apply cons_eq; try reflexivity; rewrite ?Nat.mul_1_r; try (apply f_equal2; congruence).
Ltac cviewr l t := eapply (rep_view_rest _ _ _ _ _ _ _ l t); [eassumption|calc_some|rdq|
  repeat match goal with |- context [size ?X ?k] => match goal with H : rep _ _ _ _ _ _ _ X |- _ => rewrite (size_rep _ _ _ _ _ _ _ _ H k) end end;
  cbn [nth map ldim s_out Nat.pow FF prod_dims fold_right]; repeat (apply Nat.neq_mul_0; split); try apply HD; discriminate].
Lemma tm2_with_ok l r E : fits D ((E, rims 1 0) :: col 1 0 true ++ col 1 32 true ++ halves 0 32 0 0 l r) ->
  exists M, tm2_with l r E = Ok M /\ isc ((E, rims 1 0) :: col 1 0 true ++ col 1 32 true ++ halves 0 32 0 0 l r) (rims 1 64) M.
Proof. intros HF. expand_net HF; leaves SR HF; conj_eqs HF cj a 2 3; conj_eqs HF cj a 6 7; same_dims Q1 Q5. singleE SR; [unfold tm2_with, layer3, dims2;
  step ltac:(dot2 SR Q Q0); step ltac:(step ltac:(ein3 SR Q1 Q8 Q2); cviewr [FF 8 9; FF 2 3; FF 10 11; FF 34 35] (V 24));
  step ltac:(cdot SR); step ltac:(dotr SR Q3); step ltac:(dotr SR Q4);
  step ltac:(step ltac:(ein3 SR Q5 Q9 Q6); cviewr [FF 40 41; FF 34 35; FF 42 43; FF 66 67] (V 24)); 
  step ltac:(cdot SR); dotr SR Q7|check|reflexivity]. Qed.

(** two rows *)
Definition tm12_none (E : ten) : res ten :=
  x <- contract T E [1] [0] ;;
  A <- layer_none z o add mul cj a ;; x <- contract x A [1;2] [0;1] ;;
  A <- layer_none z o add mul cj a ;; x <- contract x A [1;3] [1;0] ;;
  contract x T [1;3] [0;2].
Definition tm12_with (l r E : ten) : res ten :=
  x <- contract T E [1] [0] ;;
  A <- layer3 z o add mul cj a l ;; x <- contract x A [1;2] [0;1] ;;
  A <- layer3 z o add mul cj a r ;; x <- contract x A [1;3;5] [1;0;4] ;;
  contract x T [1;3] [0;2].
Ltac cviewq l := idtac; let l' := eval vm_compute in l in eapply (rep_view _ _ _ _ _ _ _ l'); [eassumption|calc_some|rdq].
Lemma tm12_none_ok E : fits D ((E, rims 2 0) :: col 2 0 false) ->
  exists M, tm12_none E = Ok M /\ isc ((E, rims 2 0) :: col 2 0 false) (rims 2 32) M.
Proof. intros HF. expand_net HF; leaves SR HF; conj_eqs HF cj a 2 3; conj_eqs HF cj a 4 5; same_dims Q1 Q3. singleE SR; [unfold tm12_none, layer_none, dims2;
  step ltac:(dot2 SR Q0 Q);
  step ltac:(step ltac:(ein2 SR Q1 Q2); cviewq [FF 8 9; FF 2 3; FF 10 11; FF 34 35]); step ltac:(cdot SR);
  step ltac:(step ltac:(ein2 SR Q3 Q4); cviewq [FF 10 11; FF 4 5; FF 12 13; FF 36 37]); step ltac:(cdot SR); dotr SR Q5|check|reflexivity]. Qed.
Lemma tm12_with_ok l r E : fits D ((E, rims 2 0) :: col 2 0 true ++ halves 0 0 0 1 l r) ->
  exists M, tm12_with l r E = Ok M /\ isc ((E, rims 2 0) :: col 2 0 true ++ halves 0 0 0 1 l r) (rims 2 32) M.
Proof. intros HF. expand_net HF; leaves SR HF; conj_eqs HF cj a 2 3; conj_eqs HF cj a 4 5; same_dims Q1 Q3. singleE SR; [unfold tm12_with, layer3, dims2;
  step ltac:(dot2 SR Q0 Q);
  step ltac:(step ltac:(ein3 SR Q1 Q6 Q2); cviewr [FF 8 9; FF 2 3; FF 10 11; FF 34 35] (V 24)); step ltac:(cdot SR);
  step ltac:(step ltac:(ein3 SR Q3 Q7 Q4); cviewr [FF 10 11; FF 4 5; FF 12 13; FF 36 37] (V 24)); step ltac:(cdot SR); dotr SR Q5|check|reflexivity]. Qed.

(** edges, as contracted *)
Definition edge_raw : @network K := [(C, [V 0; V 32]); (T, [V 0; V 1; FF 34 35]); (C, [V 1; V 33])].
Lemma edge_ok : fits D edge_raw -> exists M, edge z o add mul C T = Ok M /\ isc edge_raw (rims 1 32) M.
Proof. intros HF. expand_net HF; leaves SR HF. singleE SR; [unfold edge; step ltac:(dot2 SR Q Q0); dotr SR Q1|check|reflexivity]. Qed.
Ltac perm2 Qa Qb T' ET RT RT' := let ET' := fresh in let T'' := fresh in
  match type of Qa with rep ?z ?o ?add ?mul ?D ?E ?S ?X => match type of Qb with rep _ _ _ _ _ _ ?S' _ =>
    let v := eval vm_compute in (sym_perm S [1;2;0]) in let v' := eval vm_compute in (sym_perm S' [1;2;0]) in
    match v with Some ?w => match v' with Some ?w' =>
      destruct (rep_perm z o add mul D E S [1;2;0] w X Qa eq_refl) as (T' & ET & RT); destruct (rep_perm z o add mul D E S' [1;2;0] w' X Qb eq_refl) as (T'' & ET' & RT') end end end end;
  rewrite ET in ET'; injection ET' as <-.
Ltac done1 := match goal with R : rep _ _ _ _ _ _ _ ?x |- exists M, Ok ?x = Ok M /\ _ => exists x; split; [reflexivity|exact R] end.
Definition edge2_raw : @network K := [(C, [V 32; V 0]); (T, [V 1; V 0; FF 34 35]); (T, [V 2; V 1; FF 36 37]); (C, [V 2; V 33])].
Lemma edge2_ok : fits D edge2_raw -> exists M, edge_L z o add mul C T 2 = Ok M /\ isc edge2_raw (rims 2 32) M.
Proof. intros HF. expand_net HF; leaves SR HF.
  perm2 Q0 Q1 T' ET RT RT'. unfold edge_L. cbn [edge_loop Nat.add]. rewrite ET. cbn [bind].
  singleE SR; [step ltac:(step ltac:(dot2 SR Q RT); step ltac:(dotr SR RT'); done1); dotr SR Q2|check|reflexivity]. Qed.
Lemma close_ok E : fits D ((E, rims 1 0) :: right_end C T 1 0) -> exists M, close_edge z o add mul C T E = Ok M /\ isc ((E, rims 1 0) :: right_end C T 1 0) [] M.
Proof. intros HF. expand_net HF; leaves SR HF. singleE SR; [unfold close_edge; step ltac:(dot2 SR Q Q0); step ltac:(dotr SR Q1); dotr SR Q2|check|reflexivity]. Qed.
Definition close2_raw : @network K := [(C, [V 1; V 20]); (T, [V 19; V 20; FF 4 5]); (T, [V 18; V 19; FF 2 3]); (C, [V 18; V 0])].
Lemma close2_ok E : fits D ((E, rims 2 0) :: close2_raw) -> exists M, close_edge_L z o add mul C T E = Ok M /\ isc ((E, rims 2 0) :: close2_raw) [] M.
Proof. intros HF. assert (HE : length (tdims E) = 4). { inversion HF as [|? ? [_ H] _]. cbn [fst snd] in H. rewrite H. reflexivity. }
  unfold close_edge_L. rewrite HE. cbn [Nat.sub seq rev app]. expand_net HF; leaves SR HF.
  perm2 Q1 Q2 T' ET RT RT'. unfold edge_L. cbn [edge_loop Nat.add]. rewrite ET. cbn [bind].
  singleE SR; [step ltac:(step ltac:(step ltac:(dot2 SR Q0 RT); step ltac:(dotr SR RT'); done1); dotr SR Q3); dotl SR Q|check|reflexivity]. Qed.
Lemma given_ok E R : fits D [(E, rims 1 0); (R, rims 1 0)] -> exists M, contract E R [0;1;2] [0;1;2] = Ok M /\ isc [(E, rims 1 0); (R, rims 1 0)] [] M.
Proof. intros HF. expand_net HF; leaves SR HF. singleE SR; [dot2 SR Q Q0|check|reflexivity]. Qed.
End P.
