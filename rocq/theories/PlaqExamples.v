(** Concrete cases for the plaquette theorems. *)
From Coq Require Import Lia QArith Qcanon.
From Verif Require Import Base BaseLemmas Tensor TensorLemmas Plaq PlaqSpec PlaqProofs8 PlaqProofs10.
Open Scope list_scope.
Open Scope Z_scope.

Notation q0 := (Q2Qc (0 # 1)). Notation q1 := (Q2Qc (1 # 1)). Notation qh := (Q2Qc (1 # 2)). Notation qq := (Q2Qc (1 # 4)).
Notation hpq j1 j2 hz A B Zt U c := (get_hp q0 q1 Qcplus Qcmult Qcminus Qcopp qh qq 2 j1 j2 hz A B Zt U c).
(** the exchange of two sites, and a diagonal operator *)
Definition Pq : tensor Qc := P12 q0 q1 2.
Definition Zq : tensor Qc := mkT [2; 2]%nat [q1; q0; q0; Qcopp q1].
Definition Uq : tensor Qc := mkT [2; 2]%nat [q0; q1; q1; q0].
Definition num (n : Z) : Qc := Q2Qc (n # 1).
Definition one_at (p : coord) : config := fun q => if eqb q p then 1%nat else 0%nat.
Example q_ring : Qcplus qh qh = q1 /\ Qcmult (Qcplus (Qcplus (Qcplus q1 q1) q1) q1) qq = q1.
Proof. split; apply Qc_is_canon; vm_compute; reflexivity. Qed.
Example Pq_symmetric : symmetric2 q0 2 Pq.
Proof. intros i j a b Hi Hj Ha Hb. destruct i as [|[|]], j as [|[|]], a as [|[|]], b as [|[|]]; try lia; reflexivity. Qed.
(** matrix elements on the 4x4 lattice, with j1 = 3, j2 = 5, hz = 7 and a field that flips spins *)
Definition totals (l : list (config * config)) : list Qc :=
  let h0 := getOk (mkT [] []) (hpq (num 3) (num 5) (num 7) Pq Pq Zq Uq (0, 0)) in
  let h1 := getOk (mkT [] []) (hpq (num 3) (num 5) (num 7) Pq Pq Zq Uq (1, 0)) in
  map (fun p => osum q0 Qcplus (sites 4 4) (fun p => on q0 4 4 (plaquette p) (loc4 q0 (if Z.even (fst p + snd p) then h0 else h1))) (fst p) (snd p)) l.
(** moving one excitation to a neighbour (across the boundary), along a diagonal, two steps,
    removing it, and the diagonal element of an excitation on an odd site *)
Example elements : map this (totals [(one_at (0, 0), one_at (3, 0)); (one_at (1, 1), one_at (2, 2)); (one_at (1, 1), one_at (3, 1));
    (one_at (1, 1), fun _ => 0%nat); (one_at (1, 0), one_at (1, 0))]) = map this [num 3; num 5; num 0; num 1; num (28 * 3 + 28 * 5 - 7 * 2)].
Proof. vm_compute. reflexivity. Qed.

(** the energies of the product state: 2 per site for nearest neighbours *)
Example hb_eight : hb_energy_2x2_4site 0 1 Z.add Z.mul 2 (fun _ => basis_rdm 0 1 2 0 4) Szz = Ok 8.
Proof. vm_compute. reflexivity. Qed.
Example cc_one : cc_energy_2x2_4site 0 1 Z.add Z.mul kdivz 2 (fun _ => basis_rdm 0 1 2 0 4) Szz Szz = Ok 1.
Proof. vm_compute. reflexivity. Qed.
Example nn_two : energy_2x1_1x2 0 Z.add Z.mul kdivz ks4 (fun _ => basis_rdm 0 1 2 0 2) (fun _ => basis_rdm 0 1 2 0 2) Szz Szz = 2.
Proof. vm_compute. reflexivity. Qed.
(** 3*2 - 10*2 *)
Example jq_value : jq_energy_2x2_4site 0 1 Z.add Z.mul Z.sub kdivz 2 (fun _ => basis_rdm 0 1 2 0 4) 3 10 Szz Szz = Ok (-14).
Proof. vm_compute. reflexivity. Qed.
(** one horizontal bond, (1+7)/2 vertical bonds, no net staggered field *)
Example ladders_value : ladders_energy 0 1 Z.add Z.mul Z.opp kdivz ks4 (fun _ => basis_rdm 0 1 2 0 2) (fun _ => basis_rdm 0 1 2 0 2) 7 9 Szz Szz = 5.
Proof. vm_compute. reflexivity. Qed.
Example two_by_two : tiling 4 6 v2s2 ks4 6.
Proof. exact (tiling2 4 6 eq_refl eq_refl eq_refl eq_refl). Qed.
(** the ring exchange moves the state of site 0 to site 1 *)
Definition ringz : tensor Z := getOk (mkT [] []) (ring_exchange 0 1 Z.add Z.mul Z.sub 2).
Example ring_up : loc4 0 ringz [1; 0; 0; 0]%nat [0; 1; 0; 0]%nat = 1 /\ loc4 0 ringz [0; 1; 0; 0]%nat [1; 0; 0; 0]%nat = -1 /\ loc4 0 ringz [1; 0; 0; 0]%nat [0; 0; 0; 1]%nat = 0.
Proof. vm_compute. auto. Qed.
