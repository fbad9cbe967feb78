(** Concrete cases for the energies of single-site bipartite states. *)
From Coq Require Import Lia QArith Qcanon.
From Verif Require Import Base BaseLemmas Tensor TensorLemmas Plaq PlaqSpec PlaqProofs10 Bip BipSpec BipProofs8.
Open Scope list_scope.
Open Scope Z_scope.

Definition num (n : Z) : Qc := Q2Qc (n # 1).
Definition Pq : tensor Qc := P12 q0 q1 2.
Definition Uq : tensor Qc := mkT [2; 2]%nat [num 11; q1; q1; q0].
Example Pq_symmetric : symmetric2 q0 2 Pq.
Proof. intros i j a b Hi Hj Ha Hb. destruct i as [|[|]], j as [|[|]], a as [|[|]], b as [|[|]]; try lia; reflexivity. Qed.
(** the exchange of two spins is invariant, the field is not *)
Example Pq_invariant : rotation_invariant q1 Qcmult 2 flip2 sign2 2 (loc2 q0 Pq).
Proof.
  intros i a [Li Fi] [La Fa]. destruct i as [|i [|j [|]]]; try discriminate. destruct a as [|a [|b [|]]]; try discriminate.
  repeat match goal with F : Forall _ (_ :: _) |- _ => apply Forall_cons_iff in F; destruct F as [? F] end.
  destruct i as [|[|]], j as [|[|]], a as [|[|]], b as [|[|]]; try lia; apply Qc_is_canon; reflexivity.
Qed.
(** the state of up spins with every odd one turned over; j1 = 3 sees no parallel neighbours, j2 = 5 only parallel ones *)
Example bp_value : valq (energy_BP q0 q1 Qcplus Qcmult Qcminus Qcopp qh qq nzq 2 (num 3) (num 5) q0 q0 (num 7) Pq Pq Zq Uq Rq O8q true (fun _ => basis_rdm q0 q1 2 0 4) (fun _ => Err AssertionError)) =
  Some (this (Qcplus (num (2 * 5 - 7)) (Qcmult qh (num 11)))).
Proof. vm_compute. reflexivity. Qed.
Example bp_total : this (rotated q1 Qcmult 2 2 flip2 sign2 (basis 0) (H_j1j2 q0 q1 Qcplus Qcmult Qcopp 2 2 (num 3) (num 5) (num 7) Pq Pq Zq Uq)) = this (num (4 * (2 * 5 - 7) + 2 * 11)).
Proof. vm_compute. reflexivity. Qed.
Example bp_assert : energy_BP q0 q1 Qcplus Qcmult Qcminus Qcopp qh qq nzq 2 q0 q0 q0 q0 q0 O4q O4q Zq O2q Rq O8q false (fun _ => O8q) (fun _ => Err AssertionError) = Err AssertionError.
Proof. reflexivity. Qed.
(** from pairs, with the sign of the staggered field reversed *)
Example low_value : valq (energy_1x1_lowmem q0 q1 Qcplus Qcmult Qcminus Qcopp qh q2 nzq 2 (num 3) (num 5) q0 q0 (num 7) Pq Pq Zq Uq Rq true (basis_rdm q0 q1 2 0 2) (basis_rdm q0 q1 2 0 2) O4q) =
  Some (this (Qcplus (num (2 * 5 + 7)) (Qcmult qh (num 11)))).
Proof. vm_compute. reflexivity. Qed.
Example low_chiral : energy_1x1_lowmem q0 q1 Qcplus Qcmult Qcminus Qcopp qh q2 nzq 2 q0 q0 q0 q1 q0 O4q O4q Zq O2q Rq true O4q O4q O4q = Err AssertionError.
Proof. reflexivity. Qed.
(** four parallel diagonals in the J-Q model: Q = P - 1/4 is -1/4 between antiparallel spins *)
Example jq_value : valq (jq_bp_energy q0 q1 Qcplus Qcmult Qcminus qq 2 (num 3) (num 16) Pq Rq (basis_rdm q0 q1 2 0 4)) = Some (-2 # 1)%Q.
Proof. vm_compute. reflexivity. Qed.
Example ladders_value : valq (Ok (ladders_bp_energy q0 Qcplus Qcmult (fun x m => Qcdiv x (num (Z.of_nat m))) 2 [(0, 0); (0, 1)] (fun _ => basis_rdm q0 q1 2 0 2) (fun _ => basis_rdm q0 q1 2 0 2)
   (num 7) (tbuild [2; 2; 2; 2]%nat (fun ix => match ix with [i; j; a; b] => if Nat.eqb i a && Nat.eqb j b then (if Nat.eqb i j then q1 else Qcopp q1) else q0 | _ => q0 end)) Rq)) = Some (-5 # 1)%Q.
Proof. vm_compute. reflexivity. Qed.
Example ising_value : valq (ising_nn_energy q0 Qcplus Qcmult Qcminus Qcopp q2 nzq 2 q0 (num 3) Pq Zq (basis_rdm q0 q1 2 0 2)) = Some (-5 # 1)%Q.
Proof. vm_compute. reflexivity. Qed.
Example ising_assert : ising_nn_energy q0 Qcplus Qcmult Qcminus Qcopp q2 nzq 2 q1 (num 3) Pq Zq O4q = Err AssertionError.
Proof. reflexivity. Qed.
(** one bond, and the eight bonds of the 2x2 lattice *)
Example aklt_value : aklt_bp_energy 0 Z.add Z.mul 3 (basis_rdm 0 1 3 0 2) h3 R3 = 1 /\
  rotated 1 Z.mul 2 2 flip3 sign3 (basis 0) (osum 0 Z.add (bonds_nn 2 2) (bond 0 2 2 (loc2 0 h3))) = 8.
Proof. split; vm_compute; reflexivity. Qed.
