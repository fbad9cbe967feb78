(** Specification of decompositions: orthonormal columns, factorisations, sampled spaces. *)
Set Warnings "-notation-overridden,-ambiguous-paths".
From mathcomp Require Import all_ssreflect all_algebra.
Import GRing.Theory Num.Theory.
From Verif Require Import DecompGrad Rsvd.
Set Implicit Arguments.
Unset Strict Implicit.
Unset Printing Implicit Defensive.
Open Scope ring_scope.

Section Spec.
Variable C : numClosedFieldType.
Definition ortho a b (A : 'M[C]_(a, b)) : Prop := ctr A *m A = 1%:M.
(** real, not negative, in descending order *)
Definition descending r (S : 'rV[C]_r) : Prop := (forall i, 0 <= S 0 i) /\ forall i j : 'I_r, (i <= j)%N -> S 0 j <= S 0 i.
(** the factorisations are correct for matrices with at most b rows and columns *)
Definition qr_ok (b : nat) (qr : forall a b, 'M[C]_(a, b) -> 'M[C]_(a, minn a b) * 'M[C]_(minn a b, b)) : Prop :=
  forall x y (A : 'M[C]_(x, y)), (x <= b)%N -> (y <= b)%N -> ortho (qr x y A).1 /\ A = (qr x y A).1 *m (qr x y A).2.
Definition svd_ok (b : nat) (svd : forall a b, 'M[C]_(a, b) -> 'M[C]_(a, minn a b) * 'rV[C]_(minn a b) * 'M[C]_(b, minn a b)) : Prop :=
  forall x y (A : 'M[C]_(x, y)), (x <= b)%N -> (y <= b)%N ->
  [/\ ortho (svd x y A).1.1, ortho (svd x y A).2, descending (svd x y A).1.2 & A = (svd x y A).1.1 *m diag_mx (svd x y A).1.2 *m ctr (svd x y A).2].
(** the columns of Y span those of M *)
Definition spans_columns m n c (Y : 'M[C]_(m, c)) (M : 'M[C]_(m, n)) : Prop := exists W, M = Y *m W.
(** (M M^dagger)^j B *)
Definition power m n l (M : 'M[C]_(m, n)) (j : nat) (B : 'M[C]_(m, l)) : 'M[C]_(m, l) := iter j (fun X => M *m ctr M *m X) B.
(** a singular value decomposition *)
Definition is_svd m n (M : 'M[C]_(m, n)) (d : usv C m n) : Prop :=
  [/\ ortho (uu d), ortho (vv d), descending (ss d) & M = uu d *m diag_mx (ss d) *m ctr (vv d)].
(** pairs of singular vectors with their values *)
Definition triples m n (M : 'M[C]_(m, n)) (d : usv C m n) : Prop :=
  [/\ ortho (uu d), ortho (vv d), descending (ss d), M *m vv d = uu d *m diag_mx (ss d) & ctr M *m uu d = vv d *m diag_mx (ss d)].
(** the first k columns, all of them when there are fewer *)
Definition leading m n (k : nat) (d e : usv C m n) : Prop :=
  rk e = minn k (rk d) /\
  exists f : 'I_(rk e) -> 'I_(rk d), [/\ forall j, val (f j) = val j, forall i j, uu e i j = uu d i (f j), forall j, ss e 0 j = ss d 0 (f j)
    & forall i j, vv e i j = vv d i (f j)].
End Spec.
