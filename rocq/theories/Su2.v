(** Model of groups/su2.py: get_op (111-170), get_rot_op (172-176), SU2.SS (94-109).

    Elements are exact real numbers; rounding of sqrt and of the products is not modelled.
    SU2.SY, which is complex, appears only through the expressions of its real form. *)
From Verif Require Import Base Tensor.
From Coq Require Import Reals.
Open Scope list_scope.
Open Scope res_scope.

(** [for i in rng: res[i,g(i)] = v(i)] *)
Definition assign_loop (rng : list nat) (g : nat -> nat) (v : nat -> R) (t : tensor R) : res (tensor R) :=
  foldM (fun t i => tupdate t [Z.of_nat i; Z.of_nat (g i)] (fun _ => v i)) rng t.
Definition zeros2 (m : nat) : tensor R := tzeros 0%R [m; m].

Inductive op1 := OpI | OpSz | OpSp | OpSm | OpOther.

Section Ops.
Variable m : nat.
Notation mR := (INR m).
(** su2.py:123 *)
Definition v_sz (i : nat) : R := (- (5/10) * (- (mR - 1) + INR i * 2))%R.
(** su2.py:143-145 *)
Definition v_sp (i : nat) : R :=
  sqrt (5/10 * (mR - 1) * (5/10 * (mR - 1) + 1) - (- (5/10) * (mR - 1) + INR i) * (- (5/10) * (mR - 1) + INR i + 1)).
(** su2.py:165-167 *)
Definition v_sm (i : nat) : R :=
  sqrt (5/10 * (mR - 1) * (5/10 * (mR - 1) + 1) - (- (5/10) * (mR - 1) + INR i) * (- (5/10) * (mR - 1) + INR i - 1)).

Definition get_op (op : op1) : res (tensor R) :=
  match op with
  | OpI => Ok (tbuild [m; m] (fun ix => match ix with [i; j] => if Nat.eqb i j then 1%R else 0%R | _ => 0%R end))
  | OpSz => assign_loop (seq 0 m) (fun i => i) v_sz (zeros2 m)
  | OpSp => assign_loop (seq 0 (m - 1)) (fun i => (i + 1)%nat) v_sp (zeros2 m)
  | OpSm => assign_loop (seq 1 (m - 1)) (fun i => (i - 1)%nat) v_sm (zeros2 m)
  | OpOther => Err PyException
  end.

(** su2.py:172-176 *)
Definition get_rot_op : res (tensor R) :=
  assign_loop (seq 0 m) (fun i => (m - 1 - i)%nat) (fun i => (-1) ^ i)%R (zeros2 m).

(** einsum('ij,ab->iajb'), su2.py:103 *)
Definition kron (A B : tensor R) : tensor R :=
  let el t ix := match tget t ix with Some v => v | None => 0%R end in
  tbuild [m; m; m; m] (fun ix => match ix with [i; a; j; b] => (el A [i; j] * el B [a; b])%R | _ => 0%R end).
Definition tscale (c : R) (t : tensor R) : tensor R := tmap (fun v => (c * v)%R) t.
Definition tplus (a b : tensor R) : tensor R := mkT (tdims a) (map (fun p => (fst p + snd p)%R) (combine (tdata a) (tdata b))).
(** su2.py:94-109 *)
Definition SS (x y z : R) : res (tensor R) :=
  sz <- get_op OpSz ;; sp <- get_op OpSp ;; sm <- get_op OpSm ;;
  Ok (tplus (tplus (tscale x (kron sz sz)) (tscale (5/10 * y) (kron sp sm))) (tscale (5/10 * z) (kron sm sp))).
End Ops.
