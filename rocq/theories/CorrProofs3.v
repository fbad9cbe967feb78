(** Edges; strips of any length. *)
From Verif Require Import Base BaseLemmas Lattice Tensor TensorLemmas Net NetSpec NetProofs NetProofs2 NetProofs3 Corners CornersSpec CornersProofs Rdm RdmSpec RdmProofs Corr CorrSpec CorrProofs CorrProofs2.
From Verif Require Ctm.
From Coq Require Import Ring ArithRing Permutation.
Open Scope list_scope.
Open Scope nat_scope.
Open Scope res_scope.

Section P.
Context {K : Type} (z o : K) (add mul : K -> K -> K) (cj : K -> K).
Hypothesis SR : semi_ring_theory z o add mul eq.
Notation ten := (tensor K).
Variables (st : ipeps ten) (e : Ctm.envt ten) (As : coord -> ten) (Cs Ts : coord -> coord -> ten).
Hypothesis HS : sees st e As Cs Ts.
Notation TM := (apply_TM_1sO z o add mul cj st e).
Notation col := (col_net cj As Ts).
Notation edge := (edge_net Cs Ts).
Notation GE := (get_edge z o add mul st e).
Notation AE := (apply_edge z o add mul st e).

Lemma GE_eq d v : GE v (dvec d) =
  match d with
  | Up => x <- tensordot z o add mul (Ts v (0, -1)%Z) (Cs v (1, -1)%Z) [2] [0] ;; tensordot z o add mul (Cs v (-1, -1)%Z) x [1] [0]
  | Left => x <- tensordot z o add mul (Cs v (-1, -1)%Z) (Ts v (-1, 0)%Z) [0] [0] ;; tensordot z o add mul x (Cs v (-1, 1)%Z) [1] [0]
  | Down => x <- tensordot z o add mul (Cs v (-1, 1)%Z) (Ts v (0, 1)%Z) [1] [1] ;; tensordot z o add mul x (Cs v (1, 1)%Z) [2] [1]
  | Right => x <- tensordot z o add mul (Ts v (1, 0)%Z) (Cs v (1, 1)%Z) [2] [0] ;; tensordot z o add mul (Cs v (1, -1)%Z) x [1] [0]
  end.
Proof. destruct (HS v) as (k & Hk & Hkk & Hsite & HC & HT). unfold get_edge. rewrite Hk. cbn [bind].
  assert (H1 := HT (0, -1)%Z ltac:(cbn; tauto)). assert (H2 := HT (1, 0)%Z ltac:(cbn; tauto)).
  assert (H3 := HT (0, 1)%Z ltac:(cbn; tauto)). assert (H4 := HT (-1, 0)%Z ltac:(cbn; tauto)).
  assert (C1 := HC (-1, -1)%Z ltac:(cbn; tauto)). assert (C2 := HC (1, -1)%Z ltac:(cbn; tauto)).
  assert (C3 := HC (1, 1)%Z ltac:(cbn; tauto)). assert (C4 := HC (-1, 1)%Z ltac:(cbn; tauto)).
  rewrite C1, C2, C3, C4. destruct d; cbn [dvec]; rewrite ?H1, ?H2, ?H3, ?H4; reflexivity. Qed.

Section AtD.
Variable D : nat -> nat.
Notation isc := (is_contraction D z o add mul).
Ltac t_edge HF := expand_net HF; leaves SR HF; singleE SR; [step ltac:(cdot SR); cdot SR|check|reflexivity].
Lemma first_ok d v : fits D (edge d v 16 0) -> exists M, GE v (dvec d) = Ok M /\ isc (edge d v 16 0) (rim 16) M.
Proof. intros HF. rewrite GE_eq. destruct d; t_edge HF. Qed.
Lemma dvec_opp d : cneg (dvec d) = dvec (dopp d).
Proof. destruct d; reflexivity. Qed.
Lemma last_ok d v X : fits D ((X, rim 0) :: edge d v 0 10) -> exists M, AE v (dvec d) X = Ok M /\ isc ((X, rim 0) :: edge d v 0 10) [] M.
Proof. intros HF. unfold apply_edge.
  assert (HE : length (tdims X) = 3). { inversion HF as [|? ? [_ H] _]. cbn [fst snd] in H. rewrite H. reflexivity. }
  rewrite HE. cbn [Nat.eqb seq]. rewrite GE_eq.
  destruct d; (expand_net HF; leaves SR HF; singleE SR; [step ltac:(step ltac:(cdot SR); cdot SR); cdot SR|check|reflexivity]). Qed.
Lemma last_given_ok X R : fits D [(X, rim 0); (R, rim 0)] -> exists M, tensordot z o add mul X R [0; 1; 2] [0; 1; 2] = Ok M /\ isc [(X, rim 0); (R, rim 0)] [] M.
Proof. intros HF. expand_net HF; leaves SR HF; singleE SR; [cdot SR|check|reflexivity]. Qed.
End AtD.

(** shifting the bonds by b *)
Definition sh (b k : nat) : nat := b + k.
Lemma sh_inj b k l : sh b k = sh b l -> k = l.
Proof. unfold sh. lia. Qed.
Lemma rim_sh b k : map (rleg (sh b)) (rim k) = rim (b + k).
Proof. unfold rim, sh, FF. cbn. now rewrite !Nat.add_assoc. Qed.
Lemma net_cons (A : ten) ts ts' (N N' : @network K) : ts = ts' -> N = N' -> (A, ts) :: N = (A, ts') :: N'.
Proof. now intros -> ->. Qed.
Ltac legs := repeat (apply cons_eq; [try reflexivity; unfold sh, FF; try (f_equal; lia); f_equal; f_equal; lia|]); reflexivity.
Lemma col_sh b d v op : rnet (sh b) (col d v 0 op) = col d v b op.
Proof. unfold rnet, col_net. destruct d, op; cbn [map fst snd rleg FF Nat.add]; do 4 (apply net_cons; [legs|]); reflexivity. Qed.
Lemma edge_sh b d v : rnet (sh b) (edge d v 0 10) = edge d v b (b + 10).
Proof. unfold rnet, edge_net. destruct d; cbn [map fst snd rleg FF Nat.add]; do 3 (apply net_cons; [legs|]); reflexivity. Qed.
End P.
