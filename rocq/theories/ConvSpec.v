(** Specification of the convergence criterion of CTMRG. *)
From Coq Require Import Reals.
From Verif Require Import Base Lattice Ctm Conv.
Open Scope R_scope.
Open Scope list_scope.

(** squared distance of two spectra as sequences padded with zeros *)
Definition dist2 (a b : nat -> R) (n : nat) : R :=
  fold_right Rplus 0 (map (fun i => (a i - b i) * (a i - b i)) (seq 0 n)).

Section S.
Variable X : Type.
Variable svdvals : X -> list R.
(** i-th singular value of the corner, relative to the largest, zero beyond the last *)
Definition sigma (C : X) (i : nat) : R := nth i (svdvals C) 0 / nth 0 (svdvals C) 0.
Definition width (C C' : X) : nat := Nat.max (length (svdvals C)) (length (svdvals C')).
Definition corner_dist2 (C C' : X) : R := dist2 (sigma C) (sigma C') (width C C').

(** a corner with a spectrum: positive largest, then in descending order *)
Definition proper (C : X) : Prop :=
  0 < nth 0 (svdvals C) 0 /\ forall i j, (i <= j < length (svdvals C))%nat -> nth j (svdvals C) 0 <= nth i (svdvals C) 0.

Definition near (p : pnorm) (tol : R) (E E' : dict ckey X) : Prop :=
  match p with
  | Pinf => forall k C C', dget E k = Some C -> dget E' k = Some C' -> sqrt (corner_dist2 C' C) < tol
  | Pfro => sqrt (fold_right Rplus 0 (map (fun kc : ckey * X =>
               match dget E (fst kc) with Some C => corner_dist2 (snd kc) C | None => 0 end) E')) < tol
  | Pother => False
  end.

Definition good_env (ks : list ckey) (E : dict ckey X) : Prop :=
  ks <> [] /\ NoDup (dkeys E) /\ (forall k, In k (dkeys E) <-> In k ks) /\ (forall k C, dget E k = Some C -> proper C).
End S.
