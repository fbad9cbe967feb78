(** Energies of states given by one tensor, with every odd site rotated. *)
From Coq Require Import Reals QArith Qcanon.
From Verif Require Import Base Tensor Su2 Plaq PlaqSpec Bip BipSpec BipProofs5 BipProofs6 BipProofs7 BipProofs8 BipExamples.
Open Scope list_scope.
Open Scope Z_scope.

(** J1J2: energy_per_site_1x1_BP is the energy per site of the state with the odd sites rotated *)
Theorem C77_energy_BP : forall (K : Type) (k0 k1 : K) (kadd kmul ksub : K -> K -> K) (kopp : K -> K) (L M : Z) (d : nat) (flip : nat -> nat) (sg : nat -> K) (rot : tensor K) (E : @operator K -> K) (half quarter : K) (nonzero : K -> bool)
  (j1 j2 j3 lmbd hz : K) (SSd SS SZ U chiral : tensor K) (rdm : coord -> tensor K) (nnnn : coord -> res K),
  ring_theory k0 k1 kadd kmul ksub kopp (@eq K) -> 2 <= L -> 2 <= M -> Z.even L = true -> Z.even M = true ->
  signed_flip k1 kmul d flip sg -> rotation_matrix k0 d flip sg rot -> expectation kadd kmul d E -> homogeneous k0 L M E -> kadd half half = k1 -> kmul (kadd (kadd (kadd k1 k1) k1) k1) quarter = k1 ->
  (forall x, nonzero x = false -> x = k0) -> symmetric2 k0 d SSd -> rotation_invariant k1 kmul d flip sg 2 (loc2 k0 SS) ->
  (lmbd = k0 \/ rotation_invariant k1 kmul d flip sg 4 (loc4 k0 chiral)) -> reduced k0 kadd kmul L M d E 4 (plaquette (0, 0)) (rdm (0, 0)) ->
  (nonzero j3 = true -> 2 < L /\ 2 < M /\ nnnn (0, 0) = Ok (kadd (E (on k0 L M [(0, 0); (2, 0)] (loc2 k0 SS))) (E (on k0 L M [(0, 0); (0, 2)] (loc2 k0 SS))))) ->
  exists e, energy_BP k0 k1 kadd kmul ksub kopp half quarter nonzero d j1 j2 j3 lmbd hz SSd SS SZ U rot chiral true rdm nnnn = Ok e /\
    kmul (ofnat k0 k1 kadd (length (sites L M))) e = kadd (kadd (rotated k1 kmul L M flip sg E (H_j1j2 k0 k1 kadd kmul kopp L M j1 j2 hz SSd SS SZ U))
      (kmul lmbd (rotated k1 kmul L M flip sg E (H_plaq k0 kadd L M (loc4 k0 chiral))))) (kmul j3 (rotated k1 kmul L M flip sg E (H_nnnn k0 kadd L M SS))).
Proof. intros K k0 k1 kadd kmul ksub kopp L M d flip sg rot E half quarter nonzero j1 j2 j3 lmbd hz SSd SS SZ U chiral rdm nnnn Kr HL HM EL EM SF HR HE HH Hh Hq Hnz HA HB HC. exact (energy_BP_ok k0 k1 kadd kmul ksub kopp Kr L M d HL HM EL EM flip sg SF E HE HH half quarter Hh Hq nonzero Hnz rot HR j1 j2 j3 lmbd hz SSd SS SZ U chiral HA HB HC rdm nnnn). Qed.
Print Assumptions C77_energy_BP.

(** J1J2_C4V_BIPARTITE.energy_1x1 *)
Theorem C77_energy_1x1 : forall (K : Type) (k0 k1 : K) (kadd kmul ksub : K -> K -> K) (kopp : K -> K) (L M : Z) (d : nat) (flip : nat -> nat) (sg : nat -> K) (rot : tensor K) (E : @operator K -> K) (half quarter two : K) (nonzero : K -> bool)
  (j1 j2 j3 lmbd hz : K) (SSd SS SZ U chiral r r3 : tensor K),
  ring_theory k0 k1 kadd kmul ksub kopp (@eq K) -> 2 <= L -> 2 <= M -> Z.even L = true -> Z.even M = true ->
  signed_flip k1 kmul d flip sg -> rotation_matrix k0 d flip sg rot -> expectation kadd kmul d E -> homogeneous k0 L M E -> isotropic k0 L M E -> kadd half half = k1 -> kmul (kadd (kadd (kadd k1 k1) k1) k1) quarter = k1 -> two = kadd k1 k1 ->
  (forall x, nonzero x = false -> x = k0) -> symmetric2 k0 d SSd -> rotation_invariant k1 kmul d flip sg 2 (loc2 k0 SS) ->
  (lmbd = k0 \/ rotation_invariant k1 kmul d flip sg 4 (loc4 k0 chiral)) -> reduced k0 kadd kmul L M d E 4 (plaquette (0, 0)) r ->
  (nonzero j3 = true -> 2 < L /\ 2 < M /\ twf SS /\ tdims SS = [d; d; d; d] /\ reduced k0 kadd kmul L M d E 2 [(0, 0); (2, 0)] r3) ->
  exists e, energy_1x1 k0 k1 kadd kmul ksub kopp half quarter two nonzero d j1 j2 j3 lmbd hz SSd SS SZ U rot chiral r r3 = Ok e /\
    kmul (ofnat k0 k1 kadd (length (sites L M))) e = kadd (kadd (rotated k1 kmul L M flip sg E (H_j1j2 k0 k1 kadd kmul kopp L M j1 j2 hz SSd SS SZ U))
      (kmul lmbd (rotated k1 kmul L M flip sg E (H_plaq k0 kadd L M (loc4 k0 chiral))))) (kmul j3 (rotated k1 kmul L M flip sg E (H_nnnn k0 kadd L M SS))).
Proof. intros K k0 k1 kadd kmul ksub kopp L M d flip sg rot E half quarter two nonzero j1 j2 j3 lmbd hz SSd SS SZ U chiral r r3 Kr HL HM EL EM SF HR HE HH HI Hh Hq H2 Hnz HA HB HC. exact (energy_1x1_ok k0 k1 kadd kmul ksub kopp Kr L M d HL HM EL EM flip sg SF E HE HH half quarter two Hh Hq H2 nonzero Hnz rot HR j1 j2 j3 lmbd hz SSd SS SZ U chiral HA HB HC HI r r3). Qed.
Print Assumptions C77_energy_1x1.

(** energy_1x1_lowmem and energy_1x1_tiled: the staggered field has the opposite sign *)
Theorem C77_lowmem_partial : forall (K : Type) (k0 k1 : K) (kadd kmul ksub : K -> K -> K) (kopp : K -> K) (L M : Z) (d : nat) (flip : nat -> nat) (sg : nat -> K) (rot : tensor K) (E : @operator K -> K) (half two : K) (nonzero : K -> bool)
  (j1 j2 j3 lmbd hz : K) (SSd SS SZ U : tensor K) (uni : bool) (rNN rNNN r3 : tensor K),
  ring_theory k0 k1 kadd kmul ksub kopp (@eq K) -> 2 <= L -> 2 <= M -> Z.even L = true -> Z.even M = true ->
  signed_flip k1 kmul d flip sg -> rotation_matrix k0 d flip sg rot -> expectation kadd kmul d E -> homogeneous k0 L M E -> isotropic k0 L M E -> kadd half half = k1 -> two = kadd k1 k1 ->
  (forall x, nonzero x = false -> x = k0) -> symmetric2 k0 d SSd -> rotation_invariant k1 kmul d flip sg 2 (loc2 k0 SS) ->
  lmbd = k0 -> nonzero lmbd = false -> (uni = true \/ forall i a, loc1 k0 U i a = k0) -> twf SS -> tdims SS = [d; d; d; d] ->
  reduced k0 kadd kmul L M d E 2 [(0, 0); (1, 0)] rNN -> (nonzero j2 = true -> reduced k0 kadd kmul L M d E 2 [(0, 0); (1, 1)] rNNN) ->
  (nonzero j3 = true -> 2 < L /\ 2 < M /\ reduced k0 kadd kmul L M d E 2 [(0, 0); (2, 0)] r3) ->
  exists e, energy_1x1_lowmem k0 k1 kadd kmul ksub kopp half two nonzero d j1 j2 j3 lmbd hz SSd SS SZ U rot uni rNN rNNN r3 = Ok e /\
    kmul (ofnat k0 k1 kadd (length (sites L M))) e =
      kadd (rotated k1 kmul L M flip sg E (H_j1j2 k0 k1 kadd kmul kopp L M j1 j2 (kopp hz) SSd SS SZ U)) (kmul j3 (rotated k1 kmul L M flip sg E (H_nnnn k0 kadd L M SS))).
Proof. intros K k0 k1 kadd kmul ksub kopp L M d flip sg rot E half two nonzero j1 j2 j3 lmbd hz SSd SS SZ U uni rNN rNNN r3 Kr HL HM EL EM SF HR HE HH HI Hh H2 Hnz HA HB L0. exact (lowmem_ok k0 k1 kadd kmul ksub kopp Kr L M d HL HM EL EM flip sg SF E HE HH half two Hh H2 nonzero Hnz rot HR j1 j2 j3 lmbd hz SSd SS SZ U SS HA HB (or_introl L0) HI uni rNN rNNN r3 L0). Qed.
Print Assumptions C77_lowmem_partial.
Theorem C77_lowmem_refuted : exists (E : @operator Qc -> Qc) (r rNN r3 : tensor Qc) hz e e',
  (expectation Qcplus Qcmult 2 E /\ homogeneous q0 2 2 E /\ isotropic q0 2 2 E) /\
  reduced q0 Qcplus Qcmult 2 2 2 E 4 (plaquette (0, 0)) r /\ reduced q0 Qcplus Qcmult 2 2 2 E 2 [(0, 0); (1, 0)] rNN /\
  energy_1x1 q0 q1 Qcplus Qcmult Qcminus Qcopp qh qq q2 nzq 2 q0 q0 q0 q0 hz O4q O4q Zq O2q Rq O8q r r3 = Ok e /\
  energy_1x1_lowmem q0 q1 Qcplus Qcmult Qcminus Qcopp qh q2 nzq 2 q0 q0 q0 q0 hz O4q O4q Zq O2q Rq false rNN rNN r3 = Ok e' /\ e <> e'.
Proof. exact lowmem_refuted. Qed.
Print Assumptions C77_lowmem_refuted.

(** J1J2LAMBDA.energy_1x1: the field enters as a product of four spins *)
Theorem C77_lambda_partial : forall (K : Type) (k0 k1 : K) (kadd kmul ksub : K -> K -> K) (kopp : K -> K) (L M : Z) (d : nat) (flip : nat -> nat) (sg : nat -> K) (rot : tensor K) (E : @operator K -> K) (half quarter two : K) (nonzero : K -> bool)
  (j1 j2 j3 lmbd hz : K) (SSd SS SZ U chiral r r3 : tensor K),
  ring_theory k0 k1 kadd kmul ksub kopp (@eq K) -> 2 <= L -> 2 <= M -> Z.even L = true -> Z.even M = true ->
  signed_flip k1 kmul d flip sg -> rotation_matrix k0 d flip sg rot -> expectation kadd kmul d E -> homogeneous k0 L M E -> isotropic k0 L M E -> kadd half half = k1 -> kmul (kadd (kadd (kadd k1 k1) k1) k1) quarter = k1 -> two = kadd k1 k1 ->
  (forall x, nonzero x = false -> x = k0) -> symmetric2 k0 d SSd -> rotation_invariant k1 kmul d flip sg 2 (loc2 k0 SS) ->
  (lmbd = k0 \/ rotation_invariant k1 kmul d flip sg 4 (loc4 k0 chiral)) -> (hz = k0 \/ rotation_invariant k1 kmul d flip sg 4 (prod1111 k0 kmul SZ SZ SZ SZ)) ->
  (forall i a, loc1 k0 U i a = k0) -> reduced k0 kadd kmul L M d E 4 (plaquette (0, 0)) r ->
  (nonzero j3 = true -> 2 < L /\ 2 < M /\ twf SS /\ tdims SS = [d; d; d; d] /\ reduced k0 kadd kmul L M d E 2 [(0, 0); (2, 0)] r3) ->
  exists e, lambda_energy_1x1 k0 k1 kadd kmul ksub kopp half quarter two nonzero d j1 j2 j3 lmbd hz SSd SS SZ rot chiral r r3 = Ok e /\
    kmul (ofnat k0 k1 kadd (length (sites L M))) e = kadd (kadd (ksub (rotated k1 kmul L M flip sg E (H_j1j2 k0 k1 kadd kmul kopp L M j1 j2 k0 SSd SS SZ U))
      (kmul (kmul quarter hz) (rotated k1 kmul L M flip sg E (H_plaq k0 kadd L M (prod1111 k0 kmul SZ SZ SZ SZ)))))
      (kmul lmbd (rotated k1 kmul L M flip sg E (H_plaq k0 kadd L M (loc4 k0 chiral))))) (kmul j3 (rotated k1 kmul L M flip sg E (H_nnnn k0 kadd L M SS))).
Proof. intros K k0 k1 kadd kmul ksub kopp L M d flip sg rot E half quarter two nonzero j1 j2 j3 lmbd hz SSd SS SZ U chiral r r3 Kr HL HM EL EM SF HR HE HH HI Hh Hq H2 Hnz. exact (lambda_ok k0 k1 kadd kmul ksub kopp Kr L M d HL HM EL EM flip sg SF E HE HH HI half quarter two H2 nonzero Hnz rot HR Hh Hq j1 j2 j3 lmbd hz SSd SS SZ U chiral r r3). Qed.
Print Assumptions C77_lambda_partial.
Theorem C77_lambda_refuted : exists (E : @operator Qc -> Qc) (r r3 : tensor Qc) hz e,
  (expectation Qcplus Qcmult 2 E /\ homogeneous q0 2 2 E /\ isotropic q0 2 2 E) /\ reduced q0 Qcplus Qcmult 2 2 2 E 4 (plaquette (0, 0)) r /\
  lambda_energy_1x1 q0 q1 Qcplus Qcmult Qcminus Qcopp qh qq q2 nzq 2 q0 q0 q0 q0 hz O4q O4q Zq Rq O8q r r3 = Ok e /\
  Qcmult (ofnat q0 q1 Qcplus (length (sites 2 2))) e <> rotated q1 Qcmult 2 2 flip2 sign2 E (H_j1j2 q0 q1 Qcplus Qcmult Qcopp 2 2 q0 q0 hz O4q O4q Zq O2q).
Proof. exact lambda_refuted. Qed.
Print Assumptions C77_lambda_refuted.

(** JQ_C4V_BIPARTITE.energy_1x1 *)
Theorem C77_jq : forall (K : Type) (k0 k1 : K) (kadd kmul ksub : K -> K -> K) (kopp : K -> K) (L M : Z) (d : nat) (flip : nat -> nat) (sg : nat -> K) (rot : tensor K) (E : @operator K -> K) (quarter j1 q : K) (SS Q r : tensor K),
  ring_theory k0 k1 kadd kmul ksub kopp (@eq K) -> 2 <= L -> 2 <= M -> Z.even L = true -> Z.even M = true ->
  signed_flip k1 kmul d flip sg -> rotation_matrix k0 d flip sg rot -> expectation kadd kmul d E -> homogeneous k0 L M E -> rotation_invariant k1 kmul d flip sg 2 (loc2 k0 SS) ->
  (forall i j a b, (i < d)%nat -> (j < d)%nat -> (a < d)%nat -> (b < d)%nat ->
     loc2 k0 Q [i; j] [a; b] = ksub (loc2 k0 SS [i; j] [a; b]) (kmul quarter (if Nat.eqb i a && Nat.eqb j b then k1 else k0))) ->
  reduced k0 kadd kmul L M d E 4 (plaquette (0, 0)) r ->
  exists e, jq_bp_energy k0 k1 kadd kmul ksub quarter d j1 q SS rot r = Ok e /\
    kmul (ofnat k0 k1 kadd (length (sites L M))) e = rotated k1 kmul L M flip sg E (H_jq k0 kadd kmul kopp L M j1 q SS Q).
Proof. intros K k0 k1 kadd kmul ksub kopp L M d flip sg rot E quarter j1 q SS Q r Kr HL HM EL EM SF HR HE. exact (jq_ok k0 k1 kadd kmul ksub kopp Kr L M d HL HM EL EM flip sg SF E HE rot HR quarter j1 q SS Q r). Qed.
Print Assumptions C77_jq.

(** COUPLEDLADDERS_D2_BIPARTITE.energy_2x1_1x2, for every tiling that respects the rows *)
Theorem C77_ladders : forall (K : Type) (k0 k1 : K) (kadd kmul ksub : K -> K -> K) (kopp : K -> K) (L M : Z) (d : nat) (flip : nat -> nat) (sg : nat -> K) (rot : tensor K) (E : @operator K -> K) (v2s : coord -> coord) (ks : list coord) (n : nat) (kdiv : K -> nat -> K)
  (rx ry : coord -> tensor K) (alpha : K) (SS SZ : tensor K),
  ring_theory k0 k1 kadd kmul ksub kopp (@eq K) -> 2 <= L -> 2 <= M -> Z.even L = true -> Z.even M = true ->
  signed_flip k1 kmul d flip sg -> rotation_matrix k0 d flip sg rot -> expectation kadd kmul d E -> tiling L M v2s ks n -> invariant k0 L M E v2s ->
  (forall x m, m <> O -> kmul (ofnat k0 k1 kadd m) (kdiv x m) = x) -> symmetric2 k0 d SS -> rotation_invariant k1 kmul d flip sg 2 (loc2 k0 SS) ->
  (forall p, In p (sites L M) -> Z.even (snd (v2s p)) = Z.even (snd p)) ->
  (forall k, In k ks -> reduced k0 kadd kmul L M d E 2 [k; px k] (rx k)) -> (forall k, In k ks -> reduced k0 kadd kmul L M d E 2 [k; py k] (ry k)) ->
  kmul (ofnat k0 k1 kadd (length (sites L M))) (ladders_bp_energy k0 kadd kmul kdiv d ks rx ry alpha SS rot) =
    rotated k1 kmul L M flip sg E (H_ladders k0 k1 kadd kmul kopp L M alpha k0 SS SZ).
Proof. intros K k0 k1 kadd kmul ksub kopp L M d flip sg rot E v2s ks n kdiv rx ry alpha SS SZ Kr HL HM EL EM SF HR HE HT HI Hd. exact (ladders_ok k0 k1 kadd kmul ksub kopp Kr L M d HL HM EL EM flip sg SF E HE rot HR v2s ks n HT HI kdiv Hd rx ry alpha SS SZ). Qed.
Print Assumptions C77_ladders.

(** ISING_C4V.energy_1x1_nn *)
Theorem C77_ising : forall (K : Type) (k0 k1 : K) (kadd kmul ksub : K -> K -> K) (kopp : K -> K) (L M : Z) (d : nat) (E : @operator K -> K) (two q hx : K) (nonzero : K -> bool) (SzSz Sx r : tensor K),
  ring_theory k0 k1 kadd kmul ksub kopp (@eq K) -> 2 <= L -> 2 <= M -> expectation kadd kmul d E -> homogeneous k0 L M E -> isotropic k0 L M E ->
  two = kadd k1 k1 -> twf SzSz -> tdims SzSz = [d; d; d; d] -> nonzero q = false -> reduced k0 kadd kmul L M d E 2 [(0, 0); (1, 0)] r ->
  exists e, ising_nn_energy k0 kadd kmul ksub kopp two nonzero d q hx SzSz Sx r = Ok e /\
    kmul (ofnat k0 k1 kadd (length (sites L M))) e = E (H_ising k0 k1 kadd kmul kopp L M k0 hx SzSz Sx).
Proof. intros K k0 k1 kadd kmul ksub kopp L M d E two q hx nonzero SzSz Sx r Kr HL HM HE HH HI H2. exact (ising_ok k0 k1 kadd kmul ksub kopp Kr L M d HL HM E HE HH HI two H2 nonzero q hx SzSz Sx r). Qed.
Print Assumptions C77_ising.

(** AKLTS2_C4V_BIPARTITE.energy_1x1 is the energy of one bond: half of the energy per site *)
Theorem C77_aklt_partial : forall (K : Type) (k0 k1 : K) (kadd kmul ksub : K -> K -> K) (kopp : K -> K) (L M : Z) (d : nat) (flip : nat -> nat) (sg : nat -> K) (rot : tensor K) (E : @operator K -> K) (two : K) (h r : tensor K),
  ring_theory k0 k1 kadd kmul ksub kopp (@eq K) -> 2 <= L -> 2 <= M -> Z.even L = true -> Z.even M = true ->
  signed_flip k1 kmul d flip sg -> rotation_matrix k0 d flip sg rot -> expectation kadd kmul d E -> homogeneous k0 L M E -> isotropic k0 L M E -> two = kadd k1 k1 ->
  (forall j, (j < d)%nat -> kmul (sg j) (sg (flip j)) = k1) -> symmetric2 k0 d h -> reduced k0 kadd kmul L M d E 2 [(0, 0); (1, 0)] r ->
  aklt_bp_energy k0 kadd kmul d r h rot = rotated k1 kmul L M flip sg E (on k0 L M [(0, 0); (1, 0)] (loc2 k0 h)) /\
  kmul (ofnat k0 k1 kadd (length (sites L M))) (kmul two (aklt_bp_energy k0 kadd kmul d r h rot)) =
    rotated k1 kmul L M flip sg E (osum k0 kadd (bonds_nn L M) (bond k0 L M (loc2 k0 h))).
Proof. intros K k0 k1 kadd kmul ksub kopp L M d flip sg rot E two h r Kr HL HM EL EM SF HR HE HH HI H2. exact (aklt_ok k0 k1 kadd kmul ksub kopp Kr L M d HL HM EL EM flip sg SF E HE HH HI two H2 rot HR h r). Qed.
Print Assumptions C77_aklt_partial.
Theorem C77_aklt_refuted : exists (E : @operator Z -> Z) r, expectation Z.add Z.mul 3 E /\ homogeneous 0 2 2 E /\ isotropic 0 2 2 E /\
  reduced 0 Z.add Z.mul 2 2 3 E 2 [(0, 0); (1, 0)] r /\
  ofnat 0 1 Z.add (length (sites 2 2)) * aklt_bp_energy 0 Z.add Z.mul 3 r h3 R3 <> rotated 1 Z.mul 2 2 flip3 sign3 E (osum 0 Z.add (bonds_nn 2 2) (bond 0 2 2 (loc2 0 h3))).
Proof. exact aklt_refuted. Qed.
Print Assumptions C77_aklt_refuted.

(** the operators of groups/su2.py are as these theorems require *)
Theorem C77_spin : forall m, signed_flip 1%R Rmult m (sflip m) ssign /\
  (forall t, get_rot_op m = Ok t -> rotation_matrix 0%R m (sflip m) ssign t) /\
  (Nat.odd m = true -> forall i, (i < m)%nat -> (ssign i * ssign (sflip m i) = 1)%R) /\
  (forall x y t, SS m x y y = Ok t -> rotation_invariant 1%R Rmult m (sflip m) ssign 2 (loc2 0%R t)) /\
  (forall t, get_op m OpSz = Ok t -> rotation_invariant 1%R Rmult m (sflip m) ssign 4 (prod1111 0%R Rmult t t t t)).
Proof. exact spin_facts. Qed.
Print Assumptions C77_spin.
(** ... as is the ring exchange with any coefficient *)
Theorem C77_ring_exchange : forall (K : Type) (k0 k1 : K) (kadd kmul ksub : K -> K -> K) (kopp : K -> K) (d : nat) (flip : nat -> nat) (sg : nat -> K) (t : tensor K) (c : K),
  ring_theory k0 k1 kadd kmul ksub kopp (@eq K) -> signed_flip k1 kmul d flip sg -> ring_exchange k0 k1 kadd kmul ksub d = Ok t ->
  rotation_invariant k1 kmul d flip sg 4 (loc4 k0 (tscl kmul c t)).
Proof. intros K k0 k1 kadd kmul ksub kopp d flip sg t c Kr SF Et. exact (ring_invariant k0 k1 kadd kmul ksub kopp Kr d flip sg SF t c _ Et eq_refl). Qed.
Print Assumptions C77_ring_exchange.
