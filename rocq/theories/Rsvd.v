(** Model of linalg/svd_rsvd.py:6-117 [rsvd] and of linalg/custom_svd.py:386-425 [truncated_svd_rsvd] without multiplets.

    [qr]: torch.linalg.qr, reduced.  [svd]: SVDGESDD.apply, the factors U, S, V with A = U S V^dagger.  [RN]: the random matrix.
    Matrices are complex, arithmetic is exact, s and vnum are not negative.  Left out: the warning of QR_check, dtypes, devices, gradients. *)
Set Warnings "-notation-overridden,-ambiguous-paths".
From mathcomp Require Import all_ssreflect all_algebra.
Import GRing.Theory Num.Theory.
From Verif Require Import DecompGrad.
Set Implicit Arguments.
Unset Strict Implicit.
Unset Printing Implicit Defensive.
Open Scope ring_scope.

Section Rsvd.
Variable C : numClosedFieldType.
Variable qr : forall a b, 'M[C]_(a, b) -> 'M[C]_(a, minn a b) * 'M[C]_(minn a b, b).
Variable svd : forall a b, 'M[C]_(a, b) -> 'M[C]_(a, minn a b) * 'rV[C]_(minn a b) * 'M[C]_(b, minn a b).

(** a matrix whose number of columns changes, and the three factors *)
Record tall (m : nat) := Tall { cols : nat; mx : 'M[C]_(m, cols) }.
Record usv (m n : nat) := Usv { rk : nat; uu : 'M[C]_(m, rk); ss : 'rV[C]_rk; vv : 'M[C]_(n, rk) }.
(** [U[:, :k], S[:k], V[:, :k]] *)
Definition first k r (j : 'I_(minn k r)) : 'I_r := widen_ord (geq_minr k r) j.
Definition cut m n k (d : usv m n) : usv m n :=
  Usv (\matrix_(i, j) uu d i (@first k (rk d) j)) (\row_j ss d 0 (@first k (rk d) j)) (\matrix_(i, j) vv d i (@first k (rk d) j)).

Section Run.
Variables (m n : nat) (M : 'M[C]_(m, n)).
(** one pass of the loop *)
Definition pass (s : nat) (Y : tall m) (j : nat) : tall m :=
  let Z := if ((2 * j - 2) %% s == 0)%N then Tall (ctr M *m (qr (mx Y)).1) else Tall (ctr M *m mx Y) in
  if ((2 * j - 1) %% s == 0)%N then Tall (M *m (qr (mx Z)).1) else Tall (M *m mx Z).
Definition rsvd l (RN : 'M[C]_(n, l)) (k q s vnum : nat) : usv m n :=
  let Y := foldl (pass s) (Tall (M *m RN)) (iota 1 (q - 1)) in
  let Q := (qr (mx Y)).1 in
  if ((vnum == 1) || (2 < vnum))%N then
    let Bt := ctr M *m Q in
    let Qhat := (qr Bt).1 in let Rhat := (qr Bt).2 in
    let Uhat := (svd Rhat).1.1 in let S := (svd Rhat).1.2 in
    let Vhat_trans := ctr (svd Rhat).2 in
    cut k (Usv (Q *m ctr Vhat_trans) S (Qhat *m Uhat))
  else Usv (0 : 'M[C]_(m, l)) 0 0.
(** the random matrix has chi+1+q columns *)
Definition truncated_svd_rsvd chi q (RN : 'M[C]_(n, chi.+1 + q)) (niter s vnum : nat) : usv m n := cut chi (rsvd RN chi.+1 niter s vnum).
End Run.
End Rsvd.
