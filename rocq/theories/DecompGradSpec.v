(** What C68 and C69 promise. *)
Set Warnings "-notation-overridden,-ambiguous-paths".
From mathcomp Require Import all_ssreflect all_algebra.
Import GRing.Theory Num.Theory.
Set Implicit Arguments.
Unset Strict Implicit.
Unset Printing Implicit Defensive.
Open Scope ring_scope.

Section Spec.
Variable C : numClosedFieldType.

(** First-order expansions x + t x', t real with t^2 = 0.  Sums are componentwise. *)
Definition dual := (C * C)%type.
Definition dmul (x y : dual) : dual := (x.1 * y.1, x.1 * y.2 + x.2 * y.1).
Definition dconj (x : dual) : dual := (x.1^*, x.2^*).
Definition dnat (b : nat) : dual := (b%:R, 0).

(** [A + t dA = (U + t dU) diag(S + t dS) (V + t dV)^dagger] with orthonormal columns and real S:
    the singular value decomposition of every curve of matrices through A, to first order *)
Record svd_curve m n k (A dA : 'M[C]_(m, n)) (U dU : 'M[C]_(m, k)) (S dS : 'rV[C]_k) (V dV : 'M[C]_(n, k)) : Prop := {
  sc_prod : forall i j, (A i j, dA i j) = \sum_l dmul (dmul (U i l, dU i l) (S 0 l, dS 0 l)) (dconj (V j l, dV j l)) :> dual;
  sc_U : forall a b, \sum_i dmul (dconj (U i a, dU i a)) (U i b, dU i b) = dnat (a == b) :> dual;
  sc_V : forall a b, \sum_i dmul (dconj (V i a, dV i a)) (V i b, dV i b) = dnat (a == b) :> dual;
  sc_S : forall l, dconj (S 0 l, dS 0 l) = (S 0 l, dS 0 l) :> dual
}.

(** [A + t dA = (U + t dU) diag(D + t dD) (U + t dU)^dagger], U unitary, D real *)
Record eig_curve k (A dA : 'M[C]_k) (U dU : 'M[C]_k) (D dD : 'rV[C]_k) : Prop := {
  ec_prod : forall i j, (A i j, dA i j) = \sum_l dmul (dmul (U i l, dU i l) (D 0 l, dD 0 l)) (dconj (U j l, dU j l)) :> dual;
  ec_U : forall a b, \sum_i dmul (dconj (U i a, dU i a)) (U i b, dU i b) = dnat (a == b) :> dual;
  ec_D : forall l, dconj (D 0 l, dD 0 l) = (D 0 l, dD 0 l) :> dual
}.

(** change of a real function with gradient g when its argument changes by d *)
Definition change a b (g d : 'M[C]_(a, b)) : C := \sum_i \sum_j 'Re ((g i j)^* * d i j).

(** the function does not change when column i of U and of V is multiplied by a phase *)
Definition phase_free m n k (U gu : 'M[C]_(m, k)) (V gv : 'M[C]_(n, k)) : Prop :=
  forall l, \sum_i 'Re ((gu i l)^* * ('i * U i l)) + \sum_i 'Re ((gv i l)^* * ('i * V i l)) = 0.
Definition phase_free_1 m k (U gu : 'M[C]_(m, k)) : Prop :=
  forall l, \sum_i 'Re ((gu i l)^* * ('i * U i l)) = 0.

Definition all_real a b (A : 'M[C]_(a, b)) : Prop := forall i j, A i j \is Num.real.

(** The change of the singular vectors with each pair of columns damped: of the rotation of columns
    a and b that U and V make together the part [x^2/(x^2+e)] is kept, x the difference of the two
    singular values, and of the one they make against each other [x^2/(x^2+e)], x their sum. *)
Definition damping (e x : C) : C := x ^+ 2 / (x ^+ 2 + e).
Definition rot m k (U dU : 'M[C]_(m, k)) (a b : 'I_k) : C := \sum_i (U i a)^* * dU i b.
Definition damped_both m n k (e : C) (S : 'rV[C]_k) (U dU : 'M[C]_(m, k)) (V dV : 'M[C]_(n, k)) (a b : 'I_k) : C :=
  damping e (S 0 b - S 0 a) * (rot U dU a b + rot V dV a b) / 2%:R.
Definition damped_against m n k (e : C) (S : 'rV[C]_k) (U dU : 'M[C]_(m, k)) (V dV : 'M[C]_(n, k)) (a b : 'I_k) : C :=
  damping e (S 0 b + S 0 a) * (rot U dU a b - rot V dV a b) / 2%:R.
(** the damped change of U: its columns outside of the span of U and the phases are kept *)
Definition damped_dU m n k (e : C) (S : 'rV[C]_k) (U dU : 'M[C]_(m, k)) (V dV : 'M[C]_(n, k)) : 'M[C]_(m, k) :=
  \matrix_(i, b) (dU i b + \sum_(a | a != b) U i a * (damped_both e S U dU V dV a b + damped_against e S U dU V dV a b - rot U dU a b)).
Definition damped_dV m n k (e : C) (S : 'rV[C]_k) (U dU : 'M[C]_(m, k)) (V dV : 'M[C]_(n, k)) : 'M[C]_(n, k) :=
  \matrix_(i, b) (dV i b + \sum_(a | a != b) V i a * (damped_both e S U dU V dV a b - damped_against e S U dU V dV a b - rot V dV a b)).
Definition damped_dE k (e : C) (D : 'rV[C]_k) (U dU : 'M[C]_k) : 'M[C]_k :=
  \matrix_(i, b) (dU i b + \sum_(a | a != b) U i a * (damping e (D 0 b - D 0 a) * rot U dU a b - rot U dU a b)).

(** C69 *)
Record is_svd_of m n k (A : 'M[C]_(m, n)) (U : 'M[C]_(m, k)) (S : 'rV[C]_k) (V : 'M[C]_(n, k)) : Prop := {
  so_prod : forall i j, A i j = \sum_l U i l * S 0 l * (V j l)^*;
  so_U : forall a b, \sum_i (U i a)^* * U i b = (a == b)%:R;
  so_V : forall a b, \sum_i (V i a)^* * V i b = (a == b)%:R
}.
(** integer part of non-negative numbers *)
Definition is_trunc (trunc : C -> nat) : Prop :=
  forall x, 0 <= x -> (trunc x)%:R <= x /\ x < (trunc x).+1%:R.
(** the columns of two matrices agree up to phases *)
Definition rephased a b (L : 'rV[C]_b) (A B : 'M[C]_(a, b)) : Prop := forall i j, B i j = A i j * L 0 j.
End Spec.
