(** Model of the truncated decompositions, linalg/custom_svd.py and linalg/custom_eig.py.
    The decompositions themselves (torch/scipy) are parameters; a matrix of vectors is the
    list of its columns.  Arithmetic is exact. *)
From Coq Require Import Reals Lra.
From Verif Require Import Base.
Open Scope R_scope.
Open Scope res_scope.
Open Scope list_scope.

(** the constant 1.0e-16, custom_svd.py:18 *)
Definition tiny : R := / 10 ^ 16.

(** one element of [gaps] after the clamp, custom_svd.py:12-19:
    [a] is the i-th value, [b] the next one *)
Definition gap_at (abs_tol a b : R) : R :=
  let g := if Rlt_dec a abs_tol then 0 else a in
  let q := (g - b) / (g + tiny) in
  if Rlt_dec 1 q then 0 else q.

(** [gaps] for the values S[0..n]: [n] elements *)
Fixpoint gaps (abs_tol : R) (l : list R) : list R :=
  match l with
  | a :: (b :: _) as l' => gap_at abs_tol a b :: gaps abs_tol l'
  | _ => []
  end.

(** [for i in range(chi-1,-1,-1): if gaps[i] > eps: chi_new = i; break],
    custom_svd.py:24-27 *)
Fixpoint scan (eps : R) (g : list R) (n : nat) : option nat :=
  match n with
  | O => None
  | S i => if Rlt_dec eps (nth i g 0) then Some i else scan eps g i
  end.

(** custom_svd.py:10-27; [g] are the gaps.  [gaps[chi-1]] with chi=0 is [gaps[-1]] *)
Definition chi_new (eps : R) (g : list R) (chi : nat) : res nat :=
  let last_gap := match chi with O => nth_error (rev g) 0 | S i => nth_error g i end in
  match last_gap with
  | None => Err IndexError
  | Some x =>
    Ok (if Rlt_dec x eps then match scan eps g chi with Some i => i | None => chi end else chi)
  end.

(** [xt = x[:chi].clone(); xt[k+1:] = 0], custom_svd.py:29-35 *)
Definition cut {A} (z : A) (chi k : nat) (l : list A) : list A :=
  let h := firstn chi l in firstn (k + 1) h ++ repeat z (length h - (k + 1)).

Section Svd.
Variable Col : Type.
Variable zcol : Col.
Definition usv : Type := list Col * list R * list Col.

(** [_keep_multiplets], custom_svd.py:8-35 *)
Definition keep_multiplets (d : usv) (chi : nat) (eps abs_tol : R) : res usv :=
  let '(U, Sv, V) := d in
  k <- chi_new eps (gaps abs_tol (firstn (chi + 1) Sv)) chi ;;
  let St := cut 0 chi k Sv in
  Ok (cut zcol (length St) k U, St, cut zcol (length St) k V).

(** [x[:, :n]] of all three *)
Definition head (d : usv) (n : nat) : usv :=
  let '(U, Sv, V) := d in (firstn n U, firstn n Sv, firstn n V).

(** truncated_svd_gesdd (37-101), truncated_svd_af (103-145), truncated_svd_symeig (147-213),
    truncated_svd_rsvd (388-434) of custom_svd.py; [d] is the decomposition returned by the
    backend (for rsvd the one called with chi+1) *)
Definition trunc_full (keep : bool) (d : usv) (chi : nat) (eps abs_tol : R) : res usv :=
  let '(U, Sv, V) := d in
  if keep && Nat.ltb chi (length Sv) then keep_multiplets d chi eps abs_tol
  else Ok (head d (Nat.min chi (length Sv))).

(** truncated_svd_symarnoldi (215-276) and truncated_svd_arnoldi (278-339): the backend is
    asked for chi (+1) triples *)
Definition trunc_arnoldi (keep : bool) (dec : nat -> usv) (chi : nat) (eps abs_tol : R) : res usv :=
  let '(U, Sv, V) := dec (chi + (if keep then 1 else 0))%nat in
  if keep then
    k <- chi_new eps (gaps abs_tol Sv) chi ;;
    let St := cut 0 chi k Sv in
    Ok (cut zcol (length St) k U, St, cut zcol (length St) k V)
  else Ok (U, Sv, V).

(** truncated_svd_propack, custom_svd.py:341-386: the last line returns U, S, V *)
Definition trunc_propack (keep : bool) (dec : nat -> usv) (chi chi_extra : nat) (eps abs_tol : R) : res usv :=
  let '(U, Sv, V) := dec (chi + Nat.max chi_extra 1)%nat in
  if keep && Nat.ltb chi (length Sv) then keep_multiplets (U, Sv, V) chi eps abs_tol
  else Ok (U, Sv, V).

(** ** eigenvalues, linalg/custom_eig.py *)
Definition du : Type := list R * list Col.

(** truncated_eig_sym, custom_eig.py:7-66 *)
Definition trunc_eig (keep : bool) (d : du) (chi : nat) (eps abs_tol : R) : res du :=
  let '(D, U) := d in
  if keep && Nat.ltb chi (length D) then
    k <- chi_new eps (gaps abs_tol (map Rabs (firstn (chi + 1) D))) chi ;;
    let Dt := cut 0 chi k D in
    Ok (Dt, cut zcol (length Dt) k U)
  else
    let n := Nat.min chi (length D) in Ok (firstn n D, firstn n U).

(** truncated_eig_symarnoldi, custom_eig.py:68-127 *)
Definition trunc_eig_arnoldi (keep : bool) (dec : nat -> du) (chi : nat) (eps abs_tol : R) : res du :=
  let '(D, U) := dec (chi + (if keep then 1 else 0))%nat in
  if keep then
    k <- chi_new eps (gaps abs_tol (map Rabs D)) chi ;;
    let Dt := cut 0 chi k D in
    Ok (Dt, cut zcol (length Dt) k U)
  else Ok (D, U).

(** the loop finding multiplets in truncated_eig_symlobpcg, custom_eig.py:209-219, on the
    squared eigenvalues D2; returns the list of multiplet sizes *)
Fixpoint find_multiplets (eps abs_tol : R) (D2 : list R) (is : list nat) (l : nat) (m : list nat)
  : res (list nat) :=
  match is with
  | [] => Ok m
  | i :: is' =>
    match nth_error D2 i, nth_error D2 (i + 1) with
    | Some a, Some b =>
      if Rlt_dec eps (a - b) then
        if Rlt_dec b abs_tol then Ok (m ++ [S l]) else find_multiplets eps abs_tol D2 is' 0 (m ++ [S l])
      else find_multiplets eps abs_tol D2 is' (S l) m
    | _, _ => Err IndexError
    end
  end.

(** truncated_eig_symlobpcg, custom_eig.py:175-254.  [dec k] is the backend on M@M;
    [resolve D2 U m] stands for the diagonalisation within multiplets (221-229) and gives
    (D, U) of the same sizes. *)
Variable resolve : list R -> list Col -> list nat -> du.
Definition trunc_lobpcg (keep : bool) (dec : nat -> du) (chi : nat) (eps abs_tol : R) : res du :=
  let '(D2, U) := dec (chi + (if keep then 1 else 0))%nat in
  m <- find_multiplets eps abs_tol D2 (seq 0 chi) 0 [] ;;
  let '(D, U) := resolve D2 U m in
  if keep then
    k <- chi_new eps (gaps abs_tol (map Rabs D2)) chi ;;
    let Dt := cut 0 chi k D in
    Ok (Dt, cut zcol (length Dt) k U)
  else Ok (D, U).
End Svd.
