(** Model of groups/permutations.py: cycleDecomp (6-48) and levi_civita_3D (51-56).

    Sequences of non-negative Python integers are lists of naturals.  The two loops run over
    lists that are changed during the iteration, as in Python by position; they take fuel, and
    running out of it is an error that C33 excludes. *)
From Verif Require Import Base Tensor.
Open Scope list_scope.
Open Scope nat_scope.
Open Scope res_scope.

(** [l.remove(x)]: the first occurrence *)
Fixpoint list_remove (x : nat) (l : list nat) : res (list nat) :=
  match l with
  | [] => Err ValueError
  | a :: l' => if a =? x then Ok l' else r <- list_remove x l' ;; Ok (a :: r)
  end.

(** [l.index(x)] *)
Fixpoint list_index (x : nat) (l : list nat) : res nat :=
  match l with
  | [] => Err ValueError
  | a :: l' => if a =? x then Ok 0 else i <- list_index x l' ;; Ok (S i)
  end.

(** permutations.py:22-38; [cyc] is thisCycle, [step] its current element *)
Fixpoint cycle_loop (fuel : nat) (sigma : list nat) (start step : nat) (cyc fund : list nat) : res (list nat * list nat) :=
  match fuel with
  | O => Err OutOfFuel
  | S fuel' =>
      match nth_error sigma step with
      | None => Err IndexError
      | Some x =>
          if x =? start then Ok (cyc, fund)
          else fund' <- list_remove x fund ;; cycle_loop fuel' sigma start x (cyc ++ [x]) fund'
      end
  end.

(** permutations.py:19-46; [i] is the position in fundSet *)
Fixpoint start_loop (fuel : nat) (sigma : list nat) (i : nat) (fund : list nat) (cycles : list (list nat)) (parity : Z) : res (list (list nat) * Z) :=
  match fuel with
  | O => Err OutOfFuel
  | S fuel' =>
      match nth_error fund i with
      | None => Ok (cycles, parity)
      | Some start =>
          ' (cyc, fund') <- cycle_loop (S (length sigma)) sigma start start [start] fund ;;
          start_loop fuel' sigma (S i) fund' (cycles ++ [cyc]) (parity * (-1) ^ (Z.of_nat (length cyc) - 1))
      end
  end.

(** permutations.py:6-48 *)
Definition cycleDecomp (sigma : list nat) : res (list (list nat) * Z) :=
  _ <- mapM (fun i => list_index i sigma) (seq 0 (length sigma)) ;;
  start_loop (S (length sigma)) sigma 0 (seq 0 (length sigma)) [] 1.

(** itertools.permutations(range(3)) in the order of the library *)
Definition perms3 : list (list nat) := [[0; 1; 2]; [0; 2; 1]; [1; 0; 2]; [1; 2; 0]; [2; 0; 1]; [2; 1; 0]].
(** permutations.py:51-56 *)
Definition levi_civita_3D : res (tensor Z) :=
  foldM (fun lc p => ' (_, s) <- cycleDecomp p ;; tupdate lc (map Z.of_nat p) (fun _ => s)) perms3 (tzeros 0%Z [3; 3; 3]).
