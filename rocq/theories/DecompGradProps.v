(** Properties C68 (gradients of the decompositions) and C69 (signs of the singular vectors). *)
Set Warnings "-notation-overridden,-ambiguous-paths".
From mathcomp Require Import all_ssreflect all_algebra.
Import Order.TTheory GRing.Theory Num.Theory.
From Verif Require Import DecompGrad DecompGradSpec DecompGradProofs3 DecompGradProofs4 DecompGradProofs5.
Set Implicit Arguments.
Unset Strict Implicit.
Unset Printing Implicit Defensive.
Open Scope ring_scope.

(** SVDGESDD.backward, no regularization, distinct singular values: for every curve of matrices the
    function changes by the returned gradient times the change of the matrix *)
Theorem C68_svd_gradient : forall (C : numClosedFieldType) (m n k : nat) (cplx diag : bool) (A dA : 'M[C]_(m, n)) (U dU gu : 'M[C]_(m, k.+1))
  (S dS gs : 'rV[C]_k.+1) (V dV gv : 'M[C]_(n, k.+1)),
  svd_curve A dA U dU S dS V dV -> (forall j, 0 < S 0 j) -> (forall i j, i != j -> S 0 i != S 0 j) -> all_real gs ->
  (if cplx then phase_free U gu V gv else
     all_real U /\ all_real dU /\ all_real gu /\ all_real V /\ all_real dV /\ all_real gv) ->
  exists gA, svd_backward cplx diag U S V 0 (Some gu) (Some gs) (Some gv) = Ret gA /\
  change gA dA = change gu dU + change gs dS + change gv dV.
Proof. exact: svd_exact. Qed.
Print Assumptions C68_svd_gradient.

(** with regularization, equal singular values included: the gradient of the damped change *)
Theorem C68_svd_gradient_regularised : forall (C : numClosedFieldType) (m n k : nat) (cplx diag : bool) (eps : C)
  (A dA : 'M[C]_(m, n)) (U dU gu : 'M[C]_(m, k.+1)) (S dS gs : 'rV[C]_k.+1) (V dV gv : 'M[C]_(n, k.+1)),
  svd_curve A dA U dU S dS V dV -> eps \is Num.real -> all_real gs ->
  (cplx || (k.+1 < m)%N || (k.+1 < n)%N -> forall j, S 0 j != 0 /\ S 0 0 * eps <= `|S 0 j|) ->
  (if cplx then phase_free U gu V gv else
     all_real U /\ all_real dU /\ all_real gu /\ all_real V /\ all_real dV /\ all_real gv) ->
  exists gA, svd_backward cplx diag U S V eps (Some gu) (Some gs) (Some gv) = Ret gA /\
  change gA dA = change gu (damped_dU (S 0 0 * eps) S U dU V dV) + change gs dS
                 + change gv (damped_dV (S 0 0 * eps) S U dU V dV).
Proof. exact: svd_regularised. Qed.
Print Assumptions C68_svd_gradient_regularised.

(** how much of a change the damping removes *)
Theorem C68_damping : forall (C : numClosedFieldType) (e x : C), 0 <= e -> x \is Num.real -> x != 0 ->
  0 <= damping e x <= 1 /\ 1 - damping e x <= e / x ^+ 2.
Proof. exact: damping_bounds. Qed.
Print Assumptions C68_damping.

Theorem C68_eig_gradient : forall (C : numClosedFieldType) (k : nat) (A dA U dU gU : 'M[C]_k.+1) (D dD gD : 'rV[C]_k.+1),
  eig_curve A dA U dU D dD -> (forall i j, i != j -> D 0 i != D 0 j) -> all_real gD -> phase_free_1 U gU ->
  change (symeig_backward 0 D U gD gU) dA = change gD dD + change gU dU.
Proof. exact: symeig_exact. Qed.
Print Assumptions C68_eig_gradient.

Theorem C68_eig_gradient_regularised : forall (C : numClosedFieldType) (k : nat) (eps : C) (A dA U dU gU : 'M[C]_k.+1) (D dD gD : 'rV[C]_k.+1),
  eig_curve A dA U dU D dD -> eps \is Num.real -> all_real gD -> phase_free_1 U gU ->
  change (symeig_backward eps D U gD gU) dA = change gD dD + change gU (damped_dE eps D U dU).
Proof. exact: symeig_regularised. Qed.
Print Assumptions C68_eig_gradient_regularised.

Theorem C68_svdsymeig_gradient_regularised : forall (C : numClosedFieldType) (k : nat) (e : C) (A dA U dU gu V dV gv : 'M[C]_k.+1) (S dS gs : 'rV[C]_k.+1),
  svd_curve A dA U dU S dS V dV -> e \is Num.real -> all_real gs ->
  all_real U -> all_real dU -> all_real gu -> all_real V -> all_real dV -> all_real gv ->
  change (svdsymeig_backward e U S V gu gs gv) dA
  = change gu (damped_dU e S U dU V dV) + change gs dS + change gv (damped_dV e S U dU V dV).
Proof. exact: svdsymeig_regularised. Qed.
Print Assumptions C68_svdsymeig_gradient_regularised.

(** any positive regularization changes the gradient, at distinct singular values too *)
Theorem C68_regularised_refuted : forall (C : numClosedFieldType) (eps : C), 0 < eps ->
  exists (A dA U dU gu V dV gv : 'M[C]_2) (S dS gs : 'rV[C]_2) (gA : 'M[C]_2),
  svd_curve A dA U dU S dS V dV /\ (forall j, 0 < S 0 j) /\ (forall i j, i != j -> S 0 i != S 0 j) /\
  all_real U /\ all_real V /\ all_real gu /\ all_real gs /\ all_real gv /\
  svd_backward false false U S V eps (Some gu) (Some gs) (Some gv) = Ret gA /\
  change gA dA <> change gu dU + change gs dS + change gv dV.
Proof. exact: regularised_refuted. Qed.
Print Assumptions C68_regularised_refuted.

(** no gradient for V: the one for U is ignored *)
Theorem C68_gradient_of_U_alone_refuted : forall (C : numClosedFieldType),
  exists (A dA U dU gu V dV : 'M[C]_2) (S dS : 'rV[C]_2) (gA : 'M[C]_2),
  svd_curve A dA U dU S dS V dV /\ (forall j, 0 < S 0 j) /\ (forall i j, i != j -> S 0 i != S 0 j) /\
  all_real U /\ all_real V /\ all_real gu /\
  svd_backward false false U S V 0 (Some gu) None None = Ret gA /\ change gA dA <> change gu dU.
Proof. exact: none_refuted. Qed.
Print Assumptions C68_gradient_of_U_alone_refuted.

(** SVD_PROPACK.backward: the factors of a truncated decomposition *)
Theorem C68_truncated_refuted : forall (C : numClosedFieldType),
  exists (A dA U dU V dV : 'M[C]_2) (S dS : 'rV[C]_2) (gu gv : 'M[C]_(2, 1)) (gs : 'rV[C]_1) (gA : 'M[C]_2),
  svd_curve A dA U dU S dS V dV /\ (forall j, 0 < S 0 j) /\ (forall i j, i != j -> S 0 i != S 0 j) /\
  all_real U /\ all_real V /\ all_real gu /\ all_real gs /\ all_real gv /\
  svd_backward false false (col 0 U) (col 0 S) (col 0 V) 0 (Some gu) (Some gs) (Some gv) = Ret gA /\
  change gA dA <> change gu (col 0 dU) + change gs (col 0 dS) + change gv (col 0 dV).
Proof. exact: truncated_refuted. Qed.
Print Assumptions C68_truncated_refuted.

(** C69: the result is a decomposition again *)
Theorem C69_still_decomposition : forall (C : numClosedFieldType) (trunc : C -> nat) (m k n : nat)
  (A : 'M[C]_(m.+1, n)) (U : 'M[C]_(m.+1, k)) (S : 'rV[C]_k) (V : 'M[C]_(n, k)),
  is_trunc trunc -> m.+1%:R <= 2%:R ^+ 80 :> C -> is_svd_of A U S V ->
  is_svd_of A (fix_svd_signs trunc U V).1 S (fix_svd_signs trunc U V).2.
Proof. move=> C trunc m k n A U S V Ht Hm H. exact: (fix_svd (pivot_nz Ht (so_U H) Hm) H). Qed.
Print Assumptions C69_still_decomposition.

(** the entry of largest (truncated) amplitude of every column of U becomes positive *)
Theorem C69_pivot_positive : forall (C : numClosedFieldType) (trunc : C -> nat) (m k n : nat)
  (A : 'M[C]_(m.+1, n)) (U : 'M[C]_(m.+1, k)) (S : 'rV[C]_k) (V : 'M[C]_(n, k)),
  is_trunc trunc -> m.+1%:R <= 2%:R ^+ 80 :> C -> is_svd_of A U S V ->
  forall j, exists i, 0 < (fix_svd_signs trunc U V).1 i j /\
  forall l, (trunc (`|(fix_svd_signs trunc U V).1 l j| * 2%:R ^+ 40)%R <= trunc ((fix_svd_signs trunc U V).1 i j * 2%:R ^+ 40)%R)%N.
Proof. exact: fix_pivot_positive. Qed.
Print Assumptions C69_pivot_positive.

(** and does not depend on the phases with which the columns were found *)
Theorem C69_phases_fixed : forall (C : numClosedFieldType) (trunc : C -> nat) (m k n : nat)
  (U U2 : 'M[C]_(m.+1, k)) (V V2 : 'M[C]_(n, k)) (L : 'rV[C]_k),
  (forall j, `|L 0 j| = 1) -> rephased L U U2 -> rephased L V V2 ->
  fix_svd_signs trunc U2 V2 = fix_svd_signs trunc U V.
Proof. move=> C trunc m k n U U2 V V2 L HL HU HV. exact: (signs_unique trunc HL HU HV). Qed.
Print Assumptions C69_phases_fixed.

(** rectangular matrices: an exception, or a V with the wrong number of columns *)
Theorem C69_rectangular_refuted :
  (forall m n, m <> n -> m <> 1%N -> n <> 1%N -> forward_cols m n = Raise RuntimeError) /\
  (forall m, forward_cols m 1 = Ret (m, m)).
Proof. exact: rectangular. Qed.
Print Assumptions C69_rectangular_refuted.
