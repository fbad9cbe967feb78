(** C34: the C4v orbit basis enumerates every bond configuration exactly once. *)
From Verif Require Import Base Tensor C4vSpec U1Basis U1BasisSpec U1BasisProofs U1BasisProofs2 U1BasisProofs3.
Open Scope list_scope.
Open Scope nat_scope.

(** the orbit of every quadruple consists of its images under the eight symmetries *)
Theorem C34_orbit : forall x, length x = 4 -> exists o, gen_c4v_symm_A1 x = Ok o /\ NoDup o /\ orbit_of o x.
Proof. exact orbit_spec. Qed.
Print Assumptions C34_orbit.

(** the orbits up to D partition the quadruples below D; group k has maximal index k *)
Theorem C34_partition : forall D, exists gs, gen_upto_D D = Ok gs /\ partition D (concat gs) /\
  length gs = D /\ (forall k o x, k < D -> In o (nth k gs []) -> In x o -> list_max x = k).
Proof. exact gen_upto_partition. Qed.
Print Assumptions C34_partition.

(** the charge filter agrees on all members of an orbit, for every assignment of charges (also on
    raising IndexError) *)
Theorem C34_charge_constant : forall D gs o x y d cs tot s, gen_upto_D D = Ok gs -> In o (concat gs) -> In x o -> In y o ->
  u1_filter cs tot d (s :: x) = u1_filter cs tot d (s :: y).
Proof. exact charge_constant. Qed.
Print Assumptions C34_charge_constant.

(** the generated tensors form a basis, without and with charges, for up to two physical values *)
Theorem C34_basis : forall pick D n, picks pick -> n <= 2 -> exists b, get_basis_upto_D pick D n None = Ok b /\ is_basis D n (fun _ _ => True) b.
Proof. exact basis_nofilter. Qed.
Print Assumptions C34_basis.

Theorem C34_basis_charges : forall pick D n cs tot, picks pick -> n <= 2 -> length cs = n + D ->
  (exists b, generate_a_basis pick n D cs tot = Ok b /\ is_basis D n (allowed n cs tot) b) \/
  (generate_a_basis pick n D cs tot = Err AssertionError /\ forall s x, s < n -> bonds D x -> ~ allowed n cs tot s x).
Proof. exact generate_ok. Qed.
Print Assumptions C34_basis_charges.

Theorem C34_wrong_charges_rejected : forall pick D n cs tot, length cs <> n + D -> generate_a_basis pick n D cs tot = Err RuntimeError.
Proof. exact generate_wrong_length. Qed.
Print Assumptions C34_wrong_charges_rejected.

(** every symmetric tensor that conserves the charge is a combination of the basis tensors, in one way *)
Theorem C34_complete : forall {K} (zero : K) add opp pick D n cs tot, (forall a, add zero a = a) -> (forall a, add a zero = a) ->
  picks pick -> n <= 2 -> length cs = n + D -> forall b, get_basis_upto_D pick D n (Some (u1_filter cs tot n)) = Ok b ->
  forall A, symmetric_tensor zero opp D n (allowed n cs tot) A ->
  exists! c, length c = length b /\ forall s x, s < 2 -> bonds D x -> el zero A s x = combination zero add c b s x.
Proof. exact @basis_u1_complete. Qed.
Print Assumptions C34_complete.

(** more than two physical values always fail, although dim_loc_H is a parameter *)
Theorem C34_physical_dim_refuted : forall pick D n, 0 < D -> 2 < n -> get_basis_upto_D pick D n None = Err IndexError.
Proof. exact physical_dim. Qed.
Print Assumptions C34_physical_dim_refuted.

Example C34_example : generate_a_basis first_of 2 2 [1; -1; 0; 1]%Z 0%Z =
  Ok [tbuild [2; 2; 2; 2; 2] (fun ix => if in_dec (list_eq_dec Nat.eq_dec) ix [[1; 0; 0; 0; 1]; [1; 0; 0; 1; 0]; [1; 0; 1; 0; 0]; [1; 1; 0; 0; 0]] then 1%Z else 0%Z)].
Proof. vm_compute. reflexivity. Qed.
