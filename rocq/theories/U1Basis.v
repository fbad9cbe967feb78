(** Model of u1sym/basis.py:68-174: C4v orbits of bond indices and the basis tensors built on them.

    Tuples of indices are lists of naturals.  A Python set is a list without repetitions; the
    element returned by [next(iter(x))] is chosen by an oracle [pick].  Values are integers
    (dtype=int); the later conversion to double is not modelled.  Not modelled: logging, the
    basis without U(1) charges (basis.py:47-64). *)
From Verif Require Import Base Tensor.
Open Scope list_scope.
Open Scope nat_scope.
Open Scope res_scope.

Notation tup := (list nat).

Definition list_get (l : list nat) (i : nat) : res nat := match nth_error l i with Some v => Ok v | None => Err IndexError end.
(** basis.py:68-70 *)
Definition get_perm (l p : tup) : res tup := _ <- py_assert (length l =? length p) ;; mapM (list_get l) p.

(** [s.add(x)], [set(xs)], [s.update(xs)] *)
Definition set_add (s : list tup) (x : tup) : list tup := if existsb (eqb x) s then s else s ++ [x].
Definition set_update (s : list tup) (xs : list tup) : list tup := fold_left set_add xs s.

(** basis.py:73-81 *)
Definition gens : list tup := [[0; 3; 2; 1]; [2; 1; 0; 3]; [3; 0; 1; 2]; [1; 2; 3; 0]].
Definition gen_A1_ (seed : tup) : res (list tup) := xs <- mapM (get_perm seed) gens ;; Ok (set_update [] xs).

(** basis.py:84-95 *)
Definition gen_c4v_symm_A1 (seed : tup) : res (list tup) :=
  perms <- gen_A1_ seed ;;
  if negb (existsb (eqb seed) perms) then
    more <- mapM gen_A1_ perms ;; Ok (fold_left set_update more perms)
  else Ok perms.

(** basis.py:98-105 *)
Fixpoint gen_t_loop (fuel : nat) (work : list tup) (ts : list (list tup)) : res (list (list tup)) :=
  match work with
  | [] => Ok ts
  | w :: _ =>
      match fuel with
      | O => Err OutOfFuel
      | S fuel' =>
          o <- gen_c4v_symm_A1 w ;;
          gen_t_loop fuel' (filter (fun w => negb (existsb (eqb w) o)) work) (ts ++ [o])
      end
  end.
Definition gen_t (D : nat) : res (list (list tup)) :=
  let work := map (fun x => x ++ [D - 1]) (indices [D; D; D]) in
  gen_t_loop (length work) work [].

(** basis.py:108-113 *)
Definition gen_upto_D (max_D : nat) : res (list (list (list tup))) := mapM gen_t (seq 1 max_D).

(** basis.py:155-174 *)
Definition charge_at (u1_charges : list Z) (i : nat) : res Z := match nth_error u1_charges i with Some c => Ok c | None => Err IndexError end.
Definition zsum (l : list Z) : Z := fold_right Z.add 0%Z l.
Definition u1_filter (u1_charges : list Z) (total_charge : Z) (dim_loc_H : nat) (inds : tup) : res bool :=
  match inds with
  | [] => Err IndexError
  | s :: rest =>
      c <- charge_at u1_charges s ;; cs <- mapM (fun i => charge_at u1_charges (dim_loc_H + i)) rest ;;
      Ok (zsum (c :: cs) =? total_charge)%Z
  end.

Section Basis.
Variable pick : list tup -> option tup.

Fixpoint filterM {A} (f : A -> res bool) (l : list A) : res (list A) :=
  match l with [] => Ok [] | a :: l' => b <- f a ;; r <- filterM f l' ;; Ok (if b then a :: r else r) end.

(** basis.py:140-141 *)
Definition basis_tensor (max_D d : nat) (t_set : list tup) : res (tensor Z) :=
  foldM (fun t x => tupdate t (map Z.of_nat (d :: x)) (fun _ => 1%Z)) t_set (tzeros 0%Z [2; max_D; max_D; max_D; max_D]).

(** [basis[d].append(_t)] *)
Fixpoint append_at {A} (d : nat) (x : list A) (l : list (list A)) : list (list A) :=
  match l, d with [], _ => [] | a :: l', O => (a ++ x) :: l' | a :: l', S d' => a :: append_at d' x l' end.

(** basis.py:116-152 *)
Definition get_basis_upto_D (max_D dim_loc_H : nat) (f_filter : option (tup -> res bool)) : res (list (tensor Z)) :=
  groups <- gen_upto_D max_D ;;
  basis <- foldM (fun basis D_group =>
      foldM (fun basis d =>
          sel <- match f_filter with
                 | Some f => filterM (fun x => match pick x with Some y => f (d :: y) | None => Err PyException (* StopIteration *) end) D_group
                 | None => Ok D_group
                 end ;;
          ts <- mapM (basis_tensor max_D d) sel ;;
          Ok (append_at d ts basis)) (seq 0 dim_loc_H) basis)
    groups (repeat [] dim_loc_H) ;;
  Ok (concat basis).

(** basis.py:26-45 with U(1) charges *)
Definition generate_a_basis (d D : nat) (u1_charges : list Z) (u1_total_charge : Z) : res (list (tensor Z)) :=
  if length u1_charges =? d + D then
    basis <- get_basis_upto_D D d (Some (u1_filter u1_charges u1_total_charge d)) ;;
    _ <- py_assert (negb (length basis =? 0)) ;; Ok basis
  else Err RuntimeError.
End Basis.
