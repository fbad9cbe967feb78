(** One application of a transfer matrix, and the edges, contract the drawn networks. *)
From Verif Require Import Base BaseLemmas Lattice Tensor TensorLemmas Net NetSpec NetProofs NetProofs2 NetProofs3 Corners CornersSpec CornersProofs Rdm RdmSpec RdmProofs Corr CorrSpec CorrProofs.
From Verif Require Ctm.
From Coq Require Import Ring ArithRing Permutation.
Open Scope list_scope.
Open Scope nat_scope.
Open Scope res_scope.

Section P.
Context {K : Type} (z o : K) (add mul : K -> K -> K) (cj : K -> K).
Hypothesis SR : semi_ring_theory z o add mul eq.
Notation ten := (tensor K).
Variables (st : ipeps ten) (e : Ctm.envt ten) (As : coord -> ten) (Cs Ts : coord -> coord -> ten).
Hypothesis HS : sees st e As Cs Ts.
Notation TM := (apply_TM_1sO z o add mul cj st e).
Notation col := (col_net cj As Ts).

Lemma mpo_last_3 D env S M : rep z o add mul D env S M -> length (s_out S) = 3 -> mpo_last z M = Ok M.
Proof. intros (_ & E & _) L. unfold mpo_last. now rewrite E, map_length, L. Qed.
Lemma mpo_last_rep3 D env S M : rep z o add mul D env S M -> length (s_out S) = 3 -> exists M', mpo_last z M = Ok M' /\ rep z o add mul D env S M'.
Proof. intros H L. exists M. split; [exact (mpo_last_3 _ _ _ _ H L)|exact H]. Qed.

(** the lookups of apply_TM_1sO *)
Lemma TM_eq d v E op : TM v (dvec d) E op =
  match d with
  | Up => A <- aXa z o add mul cj (As v) op ;; tm_up z o add mul (Ts v (-1, 0)%Z) (Ts v (1, 0)%Z) A E
  | Left => A <- aXa z o add mul cj (As v) op ;; tm_left z o add mul (Ts v (0, -1)%Z) (Ts v (0, 1)%Z) A E
  | Down => A <- aXa z o add mul cj (As v) op ;; tm_down z o add mul (Ts v (-1, 0)%Z) (Ts v (1, 0)%Z) A E
  | Right => A <- aXa z o add mul cj (As v) op ;; tm_right z o add mul (Ts v (0, -1)%Z) (Ts v (0, 1)%Z) A E
  end.
Proof. destruct (HS v) as (k & Hk & Hkk & Hsite & HC & HT). unfold apply_TM_1sO. rewrite Hk. cbn [bind].
  assert (Hs : ipeps_site st k = Ok (As v)). { unfold ipeps_site in *. rewrite Hk in Hsite. rewrite Hkk. exact Hsite. }
  assert (H1 := HT (0, -1)%Z ltac:(cbn; tauto)). assert (H2 := HT (1, 0)%Z ltac:(cbn; tauto)).
  assert (H3 := HT (0, 1)%Z ltac:(cbn; tauto)). assert (H4 := HT (-1, 0)%Z ltac:(cbn; tauto)).
  unfold d_up, d_left, d_down, d_right. rewrite H1, H2, H3, H4, Hs. destruct d; reflexivity. Qed.

Variable D : nat -> nat.
Notation isc := (is_contraction D z o add mul).
Ltac rk HF := match type of HF with fits ?D ((?E, ?ts) :: _) => let H := fresh "HE" in
  assert (H : length (tdims E) = length ts) by (inversion HF as [|? ? [_ H] _]; cbn [fst snd] in H; rewrite H; apply map_length);
  rewrite H; cbn [length Nat.eqb] end.

Ltac t_col HF cj v tac := expand_net HF; leaves SR HF; conj_eqs HF cj (As v) 2 3; singleE SR; [tac|check|reflexivity].
Ltac t_tm HF := rk HF; step ltac:(cdot SR); step ltac:(cdot SR); step ltac:(cdot SR); eapply mpo_last_rep3; [eassumption|reflexivity].
Ltac t_id l := idtac; step ltac:(unfold aXa; step ltac:(cein SR); cviewe l).

Lemma tm_none d v E : fits D ((E, rim 0) :: col d v 0 false) ->
  exists M, TM v (dvec d) E None = Ok M /\ isc ((E, rim 0) :: col d v 0 false) (rim 16) M.
Proof. intros HF. rewrite TM_eq. destruct d.
  - t_col HF cj v ltac:(t_id [FF 17 18; FF 4 5; FF 1 2; FF 6 7]; unfold tm_up; t_tm HF).
  - t_col HF cj v ltac:(t_id [FF 4 5; FF 17 18; FF 6 7; FF 1 2]; unfold tm_left; t_tm HF).
  - t_col HF cj v ltac:(t_id [FF 1 2; FF 4 5; FF 17 18; FF 6 7]; unfold tm_down; t_tm HF).
  - t_col HF cj v ltac:(t_id [FF 4 5; FF 1 2; FF 6 7; FF 17 18]; unfold tm_right; t_tm HF). Qed.

(** with an operator; its first index is contracted with the ket *)
Ltac t_op H2 l := idtac; step ltac:(unfold aXa; rewrite H2; step ltac:(cein SR); step ltac:(cein SR); cviewe l).
Lemma tm_op d v E m : fits D (((E, rim 0) :: col d v 0 true) ++ [(m, [V 8; V 9])]) ->
  exists M, TM v (dvec d) E (Some m) = Ok M /\ isc (((E, rim 0) :: col d v 0 true) ++ [(m, [V 8; V 9])]) (rim 16) M.
Proof. intros HF. rewrite TM_eq.
  assert (H2 : length (tdims m) = 2). { apply fits_app in HF. destruct HF as [_ HF]. inversion HF as [|? ? [_ H] _]. cbn [fst snd] in H. rewrite H. reflexivity. }
  destruct d.
  - t_col HF cj v ltac:(t_op H2 [FF 17 18; FF 4 5; FF 1 2; FF 6 7]; unfold tm_up; t_tm HF).
  - t_col HF cj v ltac:(t_op H2 [FF 4 5; FF 17 18; FF 6 7; FF 1 2]; unfold tm_left; t_tm HF).
  - t_col HF cj v ltac:(t_op H2 [FF 1 2; FF 4 5; FF 17 18; FF 6 7]; unfold tm_down; t_tm HF).
  - t_col HF cj v ltac:(t_op H2 [FF 4 5; FF 1 2; FF 6 7; FF 17 18]; unfold tm_right; t_tm HF). Qed.

(** with the first half of a two-site operator: the edge gets one more index *)
Hypothesis HD : forall k, D k <> 0.
Lemma mpo_last_rep4 env S S' M : rep z o add mul D env S M -> length (s_out S) = 4 -> sym_perm S [0; 1; 3; 2] = Some S' ->
  exists M', mpo_last z M = Ok M' /\ rep z o add mul D env S' M'.
Proof. intros H L HP. destruct (rep_perm z o add mul D env S [0; 1; 3; 2] S' M H HP) as (M' & E & R). exists M'. split; [|exact R].
  destruct H as (_ & Ed & _). unfold mpo_last. now rewrite Ed, map_length, L. Qed.
Ltac cviewr l t := eapply (rep_view_rest _ _ _ _ _ _ _ l t); [eassumption|calc_some|rdims|
  repeat match goal with |- context [size ?X ?k] => match goal with H : rep _ _ _ _ _ _ _ X |- _ => rewrite (size_rep _ _ _ _ _ _ _ _ H k) end end;
  cbn [nth map ldim s_out Nat.pow FF prod_dims fold_right]; repeat (apply Nat.neq_mul_0; split); try apply HD; discriminate].
Ltac t_opl H2 l := idtac; step ltac:(unfold aXa; rewrite H2; step ltac:(cein SR); step ltac:(cein SR); cviewr l (V 28)).
Ltac t_tml HF := rk HF; step ltac:(cdot SR); step ltac:(cdot SR); step ltac:(cdot SR); eapply mpo_last_rep4; [eassumption|reflexivity|calc_some].
Lemma tm_opl d v E m : fits D (((E, rim 0) :: col d v 0 true) ++ [(m, [V 8; V 9; V 28])]) ->
  exists M, TM v (dvec d) E (Some m) = Ok M /\ isc (((E, rim 0) :: col d v 0 true) ++ [(m, [V 8; V 9; V 28])]) (rim 16 ++ [V 28]) M.
Proof. intros HF. rewrite TM_eq.
  assert (H2 : length (tdims m) = 3). { apply fits_app in HF. destruct HF as [_ HF]. inversion HF as [|? ? [_ H] _]. cbn [fst snd] in H. rewrite H. reflexivity. }
  destruct d.
  - t_col HF cj v ltac:(t_opl H2 [FF 17 18; FF 4 5; FF 1 2; FF 6 7]; unfold tm_up; t_tml HF).
  - t_col HF cj v ltac:(t_opl H2 [FF 4 5; FF 17 18; FF 6 7; FF 1 2]; unfold tm_left; t_tml HF).
  - t_col HF cj v ltac:(t_opl H2 [FF 1 2; FF 4 5; FF 17 18; FF 6 7]; unfold tm_down; t_tml HF).
  - t_col HF cj v ltac:(t_opl H2 [FF 4 5; FF 1 2; FF 6 7; FF 17 18]; unfold tm_right; t_tml HF). Qed.
(** with the second half *)
Ltac t_opr H2 l := idtac; step ltac:(unfold aXa; rewrite H2; step ltac:(cein SR); step ltac:(cein SR); cviewr l (V 12)).
Lemma tm_opr d v E m : fits D (((E, rim 0 ++ [V 12]) :: col d v 0 true) ++ [(m, [V 8; V 9; V 12])]) ->
  exists M, TM v (dvec d) E (Some m) = Ok M /\ isc (((E, rim 0 ++ [V 12]) :: col d v 0 true) ++ [(m, [V 8; V 9; V 12])]) (rim 16) M.
Proof. intros HF. rewrite TM_eq.
  assert (H2 : length (tdims m) = 3). { apply fits_app in HF. destruct HF as [_ HF]. inversion HF as [|? ? [_ H] _]. cbn [fst snd] in H. rewrite H. reflexivity. }
  destruct d.
  - t_col HF cj v ltac:(t_opr H2 [FF 17 18; FF 4 5; FF 1 2; FF 6 7]; unfold tm_up; t_tm HF).
  - t_col HF cj v ltac:(t_opr H2 [FF 4 5; FF 17 18; FF 6 7; FF 1 2]; unfold tm_left; t_tm HF).
  - t_col HF cj v ltac:(t_opr H2 [FF 1 2; FF 4 5; FF 17 18; FF 6 7]; unfold tm_down; t_tm HF).
  - t_col HF cj v ltac:(t_opr H2 [FF 4 5; FF 1 2; FF 6 7; FF 17 18]; unfold tm_right; t_tm HF). Qed.
End P.
