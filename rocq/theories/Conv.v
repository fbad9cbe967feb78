(** Model of the corner-spectra convergence check of generic CTMRG. *)
From Coq Require Import Reals Lra.
From Verif Require Import Base Lattice Ctm.
Open Scope R_scope.
Open Scope res_scope.
Open Scope list_scope.

Definition ckey : Type := coord * coord.

(** the argument [p]: 'fro' or 2; inf or 'inf'; anything else *)
Inductive pnorm := Pfro | Pinf | Pother.

(** history['spec'], history['diffs'], history['conv_crit']; None in the last is
    float('inf'), None in the second is Python's None *)
Record hist := mkHist {
  h_spec : list (dict ckey (list R));
  h_diffs : list (option (list R));
  h_crit : list (option R) }.

(** s_t.sort(descending=True)[0] *)
Fixpoint insert_desc (x : R) (l : list R) : list R :=
  match l with
  | [] => [x]
  | y :: l' => if Rle_dec y x then x :: l else y :: insert_desc x l'
  end.
Definition sort_desc (l : list R) : list R := fold_right insert_desc [] l.

Definition sumR (l : list R) : R := fold_right Rplus 0 l.
Definition sq (x : R) : R := x * x.
Fixpoint map2 (f : R -> R -> R) (a b : list R) : list R :=
  match a, b with x :: a', y :: b' => f x y :: map2 f a' b' | _, _ => [] end.

(** ctm/generic/env.py:842-848 *)
Definition diff_spec (s1 s2 : list R) : R :=
  if Nat.eqb (length s1) (length s2) then sumR (map sq (map2 Rminus s1 s2))
  else if Nat.ltb (length s1) (length s2) then
    sumR (map sq (map2 Rminus s1 (firstn (length s1) s2))) + sumR (map sq (skipn (length s1) s2))
  else
    sumR (map sq (map2 Rminus (firstn (length s2) s1) s2)) + sumR (map sq (skipn (length s2) s1)).

(** Python's max of a list *)
Definition maxR (l : list R) : res R :=
  match l with
  | [] => Err ValueError
  | x :: l' => Ok (fold_left (fun m y => if Rlt_dec m y then y else m) l' x)
  end.

Section Check.
Variable X : Type.
(** torch.linalg.svdvals *)
Variable svdvals : X -> list R.

(** env.py:204-209.  A zero first value gives NaNs in the code; here it gives the
    reals' x/0, so the theorems assume it is not zero. *)
Definition get_spectra (C : dict ckey X) : res (dict ckey (list R)) :=
  mapM (fun kc : ckey * X => let s := svdvals (snd kc) in
          match s with
          | [] => Err IndexError
          | s0 :: _ => Ok (fst kc, map (fun x => x / s0) s)
          end) C.

(** env.py:819-875 *)
Definition conv_specC (p : pnorm) (tol : R) (max_iter : Z) (C : dict ckey X) (h : option hist)
  : res (bool * hist) :=
  let h := match h with Some h => h | None => mkHist [] [] [] end in
  spec <- get_spectra C ;;
  let sorted := map (fun kv : ckey * list R => (fst kv, sort_desc (snd kv))) spec in
  ' (diffs, crit) <-
    match h_spec h with
    | [] => Ok (None, None)
    | s :: l =>
      let s_old := last l s in
      diffs <- mapM (fun kv : ckey * list R =>
                 s1 <- dget_exn sorted (fst kv) ;;
                 s2 <- dget_exn s_old (fst kv) ;;
                 Ok (diff_spec s1 s2)) spec ;;
      match p with
      | Pfro => Ok (Some diffs, Some (sqrt (sumR diffs)))
      | Pinf => m <- maxR diffs ;; Ok (Some diffs, Some (sqrt m))
      | Pother => Ok (Some diffs, None)
      end
    end ;;
  let h' := mkHist (h_spec h ++ [sorted]) (h_diffs h ++ [diffs]) (h_crit h ++ [crit]) in
  let n := length (h_diffs h') in
  let small := match crit with Some c => if Rlt_dec c tol then true else false | None => false end in
  Ok ((Nat.ltb 1 n && small) || (max_iter <=? Z.of_nat n)%Z, h').
End Check.
