(** Spin 1/2 on complex numbers: the sign of the chiral term, the couplings in the correlations. *)
From Verif Require Import Base BaseLemmas Tensor TensorLemmas Net Plaq Su3Spec Su3Examples Kag KagSpec KagProofs KagProofs2.
From Coq Require Import Reals Lra Ring.
Open Scope list_scope.
Open Scope nat_scope.
Open Scope res_scope.

Definition mat2 (a b c d : cx) : tensor cx := tbuild [2; 2] (fun ix => match ix with [0; 0] => a | [0; 1] => b | [1; 0] => c | _ => d end).
Lemma e00 a b c d : el cx0 (mat2 a b c d) [0; 0] = a. Proof. reflexivity. Qed.
Lemma e01 a b c d : el cx0 (mat2 a b c d) [0; 1] = b. Proof. reflexivity. Qed.
Lemma e10 a b c d : el cx0 (mat2 a b c d) [1; 0] = c. Proof. reflexivity. Qed.
Lemma e11 a b c d : el cx0 (mat2 a b c d) [1; 1] = d. Proof. reflexivity. Qed.
Definition I2 := mat2 cx1 cx0 cx0 cx1.
Definition Sz2 := mat2 cxhalf cx0 cx0 (cxopp cxhalf).
Definition Sp2 := mat2 cx0 cx1 cx0 cx0.
Definition Sm2 := mat2 cx0 cx0 cx1 cx0.
Definition cxz (x : cx) : bool := if Req_EM_T (fst x) 0 then if Req_EM_T (snd x) 0 then true else false else false.
Lemma cxz_ok x : cxz x = true -> x = cx0.
Proof. unfold cxz. destruct x as [a b]. cbn. destruct (Req_EM_T a 0) as [->|]; [|discriminate]. destruct (Req_EM_T b 0) as [->|]; [reflexivity|discriminate]. Qed.
Lemma cxz_0 : cxz cx0 = true.
Proof. unfold cxz. cbn. destruct (Req_EM_T 0 0) as [_|H]; [|contradiction H; reflexivity]. reflexivity. Qed.
Lemma I2_ok i a : i < 2 -> a < 2 -> el cx0 I2 [i; a] = dirac cx0 cx1 (i =? a).
Proof. intros Hi Ha. destruct i as [|[|?]]; [| |lia]; destruct a as [|[|?]]; try lia; reflexivity. Qed.
Notation model2 := (s_half_kagome cx0 cx1 cxadd cxmul cxsub cxopp cxhalf cxi cxcj cxz 2 I2 Sz2 Sp2 Sm2 true).
Notation sp2 := (fun i a => el cx0 Sp2 [i; a]).
Notation sm2 := (fun i a => el cx0 Sm2 [i; a]).
Notation sz2 := (fun i a => el cx0 Sz2 [i; a]).
Notation trip2 := (triple cxadd cxmul cxsub cxopp cxhalf cxi sz2 sp2 sm2).
Notation K2 := (kagome_ok cx0 cx1 cxadd cxmul cxsub cxopp cxhalf cxi cxcj cxz cx_ring cx_half cx_im cxz_ok 2 I2 Sz2 Sp2 Sm2 true eq_refl eq_refl eq_refl eq_refl (twf_tbuild _ _) (twf_tbuild _ _) I2_ok).
Notation B2 := (bond_final cx0 cx1 cxadd cxmul cxsub cxopp cxhalf cxi cxcj cxz cx_ring cx_half cx_im cxz_ok 2 I2 Sz2 Sp2 Sm2 true eq_refl eq_refl eq_refl eq_refl (twf_tbuild _ _) (twf_tbuild _ _) I2_ok).
Lemma st2 x y w : x < 2 -> y < 2 -> w < 2 -> state3 2 [x; y; w].
Proof. intros. split; [reflexivity|]. repeat (apply Forall_cons; [assumption|]). apply Forall_nil. Qed.
Lemma mul0 x : cxmul cx0 x = cx0. Proof. cxs. Qed.
Lemma cj0 : cxcj cx0 = cx0. Proof. cxs. Qed.
(** <0 0 1| S_0.(S_1 x S_2) |0 1 0> = i/4 *)
Example triple_value : trip2 [0; 0; 1] [0; 1; 0] = (0, 1 / 4)%R.
Proof. unfold triple, plus, minus, place, sx, sy. cbn [nth Nat.eqb]. unfold Sz2, Sp2, Sm2, dirac. rewrite ?e00, ?e01, ?e10, ?e11. cxs. Qed.
(** the documented Hamiltonian has - J_trip (S_0 x S_1).S_2 *)
Lemma triple_refuted : exists o, model2 cx0 cx0 cx0 cx1 cx0 cx0 = Ok o /\
  exists i a, state3 2 i /\ state3 2 a /\ el cx0 (h_triangle o) (i ++ a) <> cxmul (cxopp cx1) (trip2 i a).
Proof. destruct (K2 cx0 cx0 cx0 cx1 cx0 cx0 (or_intror eq_refl) cxz_0) as (o & Ho & _ & _ & _ & _ & E). exists o. split; [exact Ho|].
  assert (S1 : state3 2 [0; 0; 1]) by (apply st2; lia). assert (S2 : state3 2 [0; 1; 0]) by (apply st2; lia).
  exists [0; 0; 1], [0; 1; 0]. split; [exact S1|]. split; [exact S2|]. destruct (E _ _ S1 S2) as (E1 & _). rewrite E1.
  match goal with |- ?l <> _ => assert (X : l = trip2 [0; 0; 1] [0; 1; 0]) end.
  { unfold H_kagome, KagSpec.bonds, plus, scale. generalize (trip2 [0; 0; 1] [0; 1; 0]). intros t. rewrite cj0, !mul0. destruct t. cxs. }
  rewrite X, triple_value. unfold cxmul, cxopp, cx1. cbn [fst snd]. intros H. injection H. intros. lra. Qed.
(** the correlation labelled SS_dn_01 is multiplied by j1 *)
Lemma corr_refuted : exists j1 o t0 t1 t2, model2 j1 cx0 cx0 cx0 cx0 cx0 = Ok o /\ bond_ops cx0 o = Ok (t0, t1, t2) /\
  exists i a, state3 2 i /\ state3 2 a /\ el cx0 t0 (i ++ a) <> dot cx0 cx1 cxadd cxmul cxsub cxopp cxhalf cxi sz2 sp2 sm2 0 1 i a.
Proof. exists cx0. destruct (B2 cx0 cx0 cx0 cx0 cx0 cx0 (or_introl eq_refl) cxz_0) as (o & t0 & t1 & t2 & Ho & Hb & _ & _ & _ & E). exists o, t0, t1, t2. split; [exact Ho|]. split; [exact Hb|].
  assert (S1 : state3 2 [0; 0; 0]) by (apply st2; lia). exists [0; 0; 0], [0; 0; 0]. split; [exact S1|]. split; [exact S1|].
  destruct (E _ _ S1 S1) as (E1 & _). rewrite E1. unfold plus, scale, dot, cross_z, plus, minus, on2, place, unit_mat, sx, sy. cbn [nth Nat.eqb]. unfold Sz2, Sp2, Sm2, dirac. rewrite ?e00, ?e01, ?e10, ?e11.
  unfold cxadd, cxmul, cxsub, cxopp, cxhalf, cxi, cx0, cx1. cbn [fst snd]. intros H. injection H. intros. lra. Qed.
