(** Complex numbers as pairs of reals: the hypotheses on the scalars hold; the triangle operators of models/SU3_chiral.py. *)
From Verif Require Import Base BaseLemmas Tensor TensorLemmas Net Plaq Su3 Su3Spec Su3Proofs3 Su3Proofs4 Su3Proofs5.
From Coq Require Import Reals Lra Ring.
Open Scope list_scope.
Open Scope nat_scope.
Open Scope res_scope.

Definition cx : Type := R * R.
Definition cx0 : cx := (0, 0)%R.
Definition cx1 : cx := (1, 0)%R.
Definition cxadd (a b : cx) : cx := (fst a + fst b, snd a + snd b)%R.
Definition cxmul (a b : cx) : cx := (fst a * fst b - snd a * snd b, fst a * snd b + snd a * fst b)%R.
Definition cxsub (a b : cx) : cx := (fst a - fst b, snd a - snd b)%R.
Definition cxopp (a : cx) : cx := (- fst a, - snd a)%R.
Definition cxhalf : cx := (/ 2, 0)%R.
Definition cxthird : cx := (/ 3, 0)%R.
Definition cxi : cx := (0, 1)%R.
Definition cxs3 : cx := (sqrt 3, 0)%R.
Definition cxcj (a : cx) : cx := (fst a, - snd a)%R.
Definition cxre (a : cx) : cx := (fst a, 0)%R.
Ltac cxs := intros; unfold cxadd, cxmul, cxsub, cxopp, cx0, cx1, cxhalf, cxthird, cxi, cxs3, cxcj, cxre;
  repeat match goal with a : cx |- _ => destruct a end; cbn [fst snd]; f_equal; try ring; try field.
Lemma cx_ring : ring_theory cx0 cx1 cxadd cxmul cxsub cxopp (@eq cx).
Proof. constructor; cxs. Qed.
Lemma cx_half : cxmul (cxadd cx1 cx1) cxhalf = cx1. Proof. cxs. Qed.
Lemma cx_third : cxmul (cxadd cx1 (cxadd cx1 cx1)) cxthird = cx1. Proof. cxs. Qed.
Lemma cx_im : cxmul cxi cxi = cxopp cx1. Proof. cxs. Qed.
Lemma cx_s3 : cxmul cxs3 cxs3 = cxadd cx1 (cxadd cx1 cx1).
Proof. unfold cxs3, cxmul, cxadd, cx1. cbn [fst snd]. f_equal; [|ring]. rewrite sqrt_sqrt by lra. ring. Qed.
Lemma cx_01 : cx1 <> cx0. Proof. intros H. injection H. lra. Qed.
Lemma cx_cj : (forall x y, cxcj (cxadd x y) = cxadd (cxcj x) (cxcj y)) /\ (forall x y, cxcj (cxmul x y) = cxmul (cxcj x) (cxcj y)) /\ cxcj cx1 = cx1 /\ cxcj cxi = cxopp cxi /\ cxcj cxs3 = cxs3 /\
  (forall x, cxre x = cxmul cxhalf (cxadd x (cxcj x))).
Proof. repeat split; cxs. Qed.

(** an element of the Hamiltonian: <2 0 1|H|0 1 2> = K + i h *)
Example kagome_element j k h : exists o, kagome_h cx0 cx1 cxadd cxmul cxsub cxopp cxhalf cxthird cxi j k h = Ok o /\
  el cx0 (h_tri o) [2; 0; 1; 0; 1; 2] = cxadd k (cxmul cxi h) /\ el cx0 (h_tri o) [1; 0; 2; 0; 1; 2] = j.
Proof. destruct (kagome_final cx0 cx1 cxadd cxmul cxsub cxopp cxhalf cxthird cxi cxs3 cx_ring cx_half cx_third cx_im cx_s3 j k h) as (o & H & _ & Ho). exists o. split; [exact H|].
  assert (S1 : state3 3 [2; 0; 1] /\ state3 3 [1; 0; 2] /\ state3 3 [0; 1; 2]) by (repeat split; repeat (apply Forall_cons; [lia|]); apply Forall_nil).
  destruct S1 as (S1 & S2 & S3). split.
  - destruct (Ho _ _ S1 S3) as (_ & _ & _ & E & _). cbn [app] in E. rewrite E. unfold H_triangle, bonds3, moves. cbn -[cxadd cxmul cxsub cx0 cx1]. destruct j, k, h. unfold dirac. cxs.
  - destruct (Ho _ _ S2 S3) as (_ & _ & _ & E & _). cbn [app] in E. rewrite E. unfold H_triangle, bonds3, moves. cbn -[cxadd cxmul cxsub cx0 cx1]. destruct j, k, h. unfold dirac. cxs. Qed.
(** the bond Hamiltonian of SU3_CHIRAL on three sites in the same state *)
Lemma chiral_refuted : exists j1 t, chiral_h cx0 cx1 cxadd cxmul cxsub cxi cx0 cx0 j1 = Ok t /\
  el cx0 t [0; 0; 0; 0; 0; 0] <> H_triangle cx0 cx1 cxadd cxmul cxsub cxi j1 cx0 cx0 [0; 0; 0] [0; 0; 0].
Proof. exists cx1. eexists. split; [apply chiral_ok|]. rewrite el_build.
  - cbn. unfold H_triangle, bonds3, moves. cbn. intros H. injection H. lra.
  - apply (in_range6 [0; 0; 0] [0; 0; 0]); (split; [reflexivity|repeat (apply Forall_cons; [lia|]); apply Forall_nil]). Qed.
(** lambda_2 = (0, -i; i, 0) and, with a real dtype, zero *)
Example gell_mann_element : el cx0 (gell_mann cx0 cx1 cxadd cxmul cxsub cxopp cxhalf cxthird cxi cxs3 cxre true) [1; 0; 1] = cxopp cxi /\
  el cx0 (gell_mann cx0 cx1 cxadd cxmul cxsub cxopp cxhalf cxthird cxi cxs3 cxre false) [1; 0; 1] = cx0.
Proof. split; cbn; cxs. Qed.
