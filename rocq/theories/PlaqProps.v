(** C38, C39, C48, C58-C62: Hamiltonians from plaquette operators and energies per site. *)
From Coq Require Import Ring Reals.
From Verif Require Import Base Tensor Su2 Plaq PlaqSpec PlaqProofs2 PlaqProofs3 PlaqProofs4 PlaqProofs5 PlaqProofs7 PlaqProofs8 PlaqProofs9 PlaqProofs10 PlaqExamples.
Open Scope list_scope.
Open Scope Z_scope.

(** Summed over all plaquettes of a periodic L x M lattice the plaquette operator of J1J2 is j1 times the sum
    over the nearest-neighbour bonds plus j2 times the sum over the diagonals, minus the staggered field, plus
    the uniform field.  A staggered field needs even L and M.  Example: PlaqExamples.elements, Pq_symmetric, q_ring. *)
Theorem C38_operator {K : Type} (k0 k1 : K) (kadd kmul ksub : K -> K -> K) (kopp : K -> K) :
  ring_theory k0 k1 kadd kmul ksub kopp (@eq K) -> forall L M d, 2 <= L -> 2 <= M -> forall half quarter j1 j2 hz A B Z U hp,
  kadd half half = k1 -> kmul (kadd (kadd (kadd k1 k1) k1) k1) quarter = k1 -> symmetric2 k0 d A ->
  (hz = k0 \/ Z.even L = true /\ Z.even M = true) ->
  (forall p, In p (sites L M) -> get_hp k0 k1 kadd kmul ksub kopp half quarter d j1 j2 hz A B Z U p = Ok (hp p)) ->
  oeq d (osum k0 kadd (sites L M) (fun p => on k0 L M (plaquette p) (loc4 k0 (hp p)))) (H_j1j2 k0 k1 kadd kmul kopp L M j1 j2 hz A B Z U).
Proof. intros Kr L M d HL HM. exact (j1j2_operator k0 k1 kadd kmul ksub kopp Kr L M d HL HM). Qed.
Print Assumptions C38_operator.

(** The plaquette operator always exists. *)
Theorem C38_defined {K : Type} (k0 k1 : K) (kadd kmul ksub : K -> K -> K) (kopp : K -> K) :
  ring_theory k0 k1 kadd kmul ksub kopp (@eq K) -> forall d half quarter j1 j2 hz A B Z U c,
  exists t, get_hp k0 k1 kadd kmul ksub kopp half quarter d j1 j2 hz A B Z U c = Ok t /\ plaq_tensor d t.
Proof. intros Kr d half quarter j1 j2 hz A B Z U c. destruct (hp_j1j2 k0 k1 kadd kmul ksub kopp Kr 2 2 d (Z.le_refl 2) (Z.le_refl 2) half quarter j1 j2 hz A B Z U c) as (t & E & G & _). exact (ex_intro _ t (conj E G)). Qed.
Print Assumptions C38_defined.

(** On a lattice of at least 3 x 3 sites every pair of nearest neighbours is one of the bonds, and only once. *)
Theorem C38_bonds_nn L M :
  3 <= L -> 3 <= M -> NoDup (map (unordered L M) (bonds_nn L M)) /\
  forall p q, In p (sites L M) -> In q (sites L M) -> (In (unordered L M (p, q)) (map (unordered L M) (bonds_nn L M)) <-> apart L M [(1, 0); (0, 1)] p q).
Proof. intros HL HM. exact (conj (bonds_nn_once L M HL HM) (bonds_nn_all L M)). Qed.
Print Assumptions C38_bonds_nn.

(** The same for the diagonals. *)
Theorem C38_bonds_nnn L M :
  3 <= L -> 3 <= M -> NoDup (map (unordered L M) (bonds_nnn L M)) /\
  forall p q, In p (sites L M) -> In q (sites L M) -> (In (unordered L M (p, q)) (map (unordered L M) (bonds_nnn L M)) <-> apart L M [(1, 1); (1, -1)] p q).
Proof. intros HL HM. exact (conj (bonds_nnn_once L M HL HM) (bonds_nnn_all L M HM)). Qed.
Print Assumptions C38_bonds_nnn.

(** The spin exchange with anisotropy, SU2.SS(xyz=(delta_zz,1,1)), is symmetric. *)
Theorem C38_exchange_symmetric m x y t :
  SS m x y y = Ok t -> symmetric2 0%R m t.
Proof. exact (SS_symmetric2 m x y t). Qed.
Print Assumptions C38_exchange_symmetric.

(** energy_per_site times the number of sites is the expectation value of this Hamiltonian and the chiral term,
    for a state on a tiling with the reduced density matrices of its inequivalent plaquettes; the third-neighbour
    part is the value at the site (0,0) for every site. *)
Theorem C38_energy {K : Type} (k0 k1 : K) (kadd kmul ksub : K -> K -> K) (kopp : K -> K) :
  ring_theory k0 k1 kadd kmul ksub kopp (@eq K) -> forall L M d, 2 <= L -> 2 <= M -> forall E, expectation kadd kmul d E ->
  forall v2s ks n, tiling L M v2s ks n -> invariant k0 L M E v2s -> forall kdiv, (forall x m, m <> O -> kmul (ofnat k0 k1 kadd m) (kdiv x m) = x) ->
  forall half quarter j1 j2 j3 lmbd hz A B Z U nonzero, (forall x, nonzero x = false -> x = k0) -> forall rdm chiral nnnn,
  kadd half half = k1 -> kmul (kadd (kadd (kadd k1 k1) k1) k1) quarter = k1 -> symmetric2 k0 d A ->
  (hz = k0 \/ Z.even L = true /\ Z.even M = true /\ forall p, In p (sites L M) -> parity k1 kopp (v2s p) = parity k1 kopp p) ->
  (forall k, In k ks -> reduced k0 kadd kmul L M d E 4 (plaquette k) (rdm k)) -> plaq_tensor d chiral ->
  exists e, energy_per_site k0 k1 kadd kmul ksub kopp half quarter kdiv nonzero d j1 j2 j3 lmbd hz A B Z U ks rdm chiral nnnn = Ok e /\
    kmul (ofnat k0 k1 kadd (length (sites L M))) e = kadd (kadd (E (H_j1j2 k0 k1 kadd kmul kopp L M j1 j2 hz A B Z U))
      (kmul lmbd (E (osum k0 kadd (sites L M) (fun p => on k0 L M (plaquette p) (loc4 k0 chiral))))))
      (kmul (ofnat k0 k1 kadd (length (sites L M))) (kmul j3 (nnnn (0, 0)))).
Proof. intros Kr L M d HL HM E HE v2s ks n HT HI kdiv Hd half quarter j1 j2 j3 lmbd hz A B Z U nz Hnz. exact (j1j2_energy k0 k1 kadd kmul ksub kopp Kr L M d HL HM E HE v2s ks n HT HI kdiv Hd half quarter j1 j2 j3 lmbd hz A B Z U nz Hnz). Qed.
Print Assumptions C38_energy.

(** The third-neighbour value of a site is the exchange with the sites two steps to the right and two steps down. *)
Theorem C39_exchange_partial {K : Type} (k0 k1 : K) (kadd kmul ksub : K -> K -> K) (kopp : K -> K) :
  ring_theory k0 k1 kadd kmul ksub kopp (@eq K) -> forall L M d half E, expectation kadd kmul d E -> forall Sz Sp Sm corr c,
  (forall dir a b, In dir [(1, 0); (0, 1)] -> nth_error (corr c dir a b) 1 = Some (E (on k0 L M [c; step c dir 2] (prod11 k0 kmul (opof Sz Sp Sm a) (opof Sz Sp Sm b))))) ->
  eval_nnnn kadd kmul half corr c = Ok (kadd (E (on k0 L M [c; step c (1, 0) 2] (exchange11 k0 kadd kmul half Sz Sp Sm))) (E (on k0 L M [c; step c (0, 1) 2] (exchange11 k0 kadd kmul half Sz Sp Sm)))).
Proof. intros Kr L M d half E HE. exact (nnnn_exchange k0 k1 kadd kmul ksub kopp Kr L M d half E HE). Qed.
Print Assumptions C39_exchange_partial.

(** When all sites have the value of (0,0), the part j3 * nnnn(0,0) of C38_energy is the average over the sites. *)
Theorem C39_uniform_partial {K : Type} (k0 k1 : K) (kadd kmul ksub : K -> K -> K) (kopp : K -> K) :
  ring_theory k0 k1 kadd kmul ksub kopp (@eq K) -> forall nnnn j3 ks, (forall k, In k ks -> nnnn k = nnnn (0, 0)) ->
  kmul (ofnat k0 k1 kadd (length ks)) (kmul j3 (nnnn (0, 0))) = kmul j3 (fold_right kadd k0 (map nnnn ks)).
Proof. intros Kr. exact (nnnn_uniform k0 k1 kadd kmul ksub kopp Kr). Qed.
Print Assumptions C39_uniform_partial.

(** Otherwise it is not: two sites with values 1 and 3 give 1. *)
Theorem C39_average_refuted  :
  exists (ks : list coord) rdm (nnnn : coord -> Z) e, NoDup ks /\
  energy_per_site 0 1 Z.add Z.mul Z.sub Z.opp 0 0 kdivz nzz 2 0 0 1 0 0 zero4 zero4 zero2 zero2 ks rdm (tzeros 0 (D8 2)) nnnn = Ok e /\
  Z.of_nat (length ks) * e <> fold_right Z.add 0 (map nnnn ks).
Proof. exact nnnn_refuted. Qed.
Print Assumptions C39_average_refuted.

(** Summed over all plaquettes the operator of ISING counts every bond, plaquette and site once, with the
    plaquette coupling -q. *)
Theorem C48_operator_partial {K : Type} (k0 k1 : K) (kadd kmul ksub : K -> K -> K) (kopp : K -> K) :
  ring_theory k0 k1 kadd kmul ksub kopp (@eq K) -> forall L M d, 2 <= L -> 2 <= M -> forall q hx A X Id hp,
  (forall i a, (i < d)%nat -> (a < d)%nat -> el k0 Id [i; a] = if Nat.eqb i a then k1 else k0) ->
  ising_hp k0 k1 kmul ksub kopp d q hx A X Id = Ok hp ->
  oeq d (osum k0 kadd (sites L M) (fun p => on k0 L M (plaquette p) (loc4 k0 hp))) (H_ising k0 k1 kadd kmul kopp L M (kopp q) hx A X).
Proof. intros Kr L M d HL HM. exact (ising_operator k0 k1 kadd kmul ksub kopp Kr L M d HL HM). Qed.
Print Assumptions C48_operator_partial.

(** With the documented +q it fails. *)
Theorem C48_documented_refuted  :
  exists q hp, ising_hp 0 1 Z.mul Z.sub Z.opp 2 q 0 Szz Sx2 Id2 = Ok hp /\
  ~ oeq 2 (osum 0 Z.add (sites 2 2) (fun p => on 0 2 2 (plaquette p) (loc4 0 hp))) (H_ising 0 1 Z.add Z.mul Z.opp 2 2 q 0 Szz Sx2).
Proof. exact ising_refuted. Qed.
Print Assumptions C48_documented_refuted.

(** HB and COUPLEDCHAINS: energy_2x1_1x2 times the number of sites is the expectation value of the sum over all
    bonds, on any tiling.  Example: PlaqExamples.nn_two. *)
Theorem C58_two_site {K : Type} (k0 k1 : K) (kadd kmul ksub : K -> K -> K) (kopp : K -> K) :
  ring_theory k0 k1 kadd kmul ksub kopp (@eq K) -> forall L M d, 2 <= L -> 2 <= M -> forall E, expectation kadd kmul d E ->
  forall v2s ks n, tiling L M v2s ks n -> invariant k0 L M E v2s -> forall kdiv, (forall x m, m <> O -> kmul (ofnat k0 k1 kadd m) (kdiv x m) = x) -> 
  forall rdm2x1 rdm1x2 A B, twf A -> tdims A = [d; d; d; d] -> twf B -> tdims B = [d; d; d; d] ->
  (forall k, In k ks -> reduced k0 kadd kmul L M d E 2 [k; px k] (rdm2x1 k)) -> (forall k, In k ks -> reduced k0 kadd kmul L M d E 2 [k; py k] (rdm1x2 k)) ->
  kmul (ofnat k0 k1 kadd (length (sites L M))) (energy_2x1_1x2 k0 kadd kmul kdiv ks rdm2x1 rdm1x2 A B) = E (H_xy k0 kadd L M A B).
Proof. intros Kr L M d HL HM E HE v2s ks n HT HI kdiv Hd. exact (nn_energy k0 k1 kadd kmul ksub kopp Kr L M d HL HM E HE v2s ks n HT HI kdiv Hd). Qed.
Print Assumptions C58_two_site.

(** HB.energy_2x2_4site returns four times the energy per site of a 2x2 unit cell. *)
Theorem C58_four_times_partial {K : Type} (k0 k1 : K) (kadd kmul ksub : K -> K -> K) (kopp : K -> K) :
  ring_theory k0 k1 kadd kmul ksub kopp (@eq K) -> forall L M d, 2 <= L -> 2 <= M -> forall E, expectation kadd kmul d E -> Z.even L = true -> Z.even M = true -> invariant k0 L M E v2s2 ->
  forall rdm A, (forall k, In k ks4 -> reduced k0 kadd kmul L M d E 4 (plaquette k) (rdm k)) ->
  exists e, hb_energy_2x2_4site k0 k1 kadd kmul d rdm A = Ok e /\
  kmul (ofnat k0 k1 kadd (length (sites L M))) e = kmul (ofnat k0 k1 kadd 4) (E (H_xy k0 kadd L M A A)).
Proof. intros Kr L M d HL HM E HE EL EM HI. exact (hb_four k0 k1 kadd kmul ksub kopp Kr L M d HL HM E HE EL EM HI). Qed.
Print Assumptions C58_four_times_partial.

(** It is not the energy per site. *)
Theorem C58_per_site_refuted  :
  exists (E : @operator Z -> Z) rdm e, expectation Z.add Z.mul 2 E /\ invariant 0 2 2 E v2s2 /\
  (forall k, In k ks4 -> reduced 0 Z.add Z.mul 2 2 2 E 4 (plaquette k) (rdm k)) /\
  hb_energy_2x2_4site 0 1 Z.add Z.mul 2 rdm Szz = Ok e /\ ofnat 0 1 Z.add (length (sites 2 2)) * e <> E (H_xy 0 Z.add 2 2 Szz Szz).
Proof. exact hb_refuted. Qed.
Print Assumptions C58_per_site_refuted.

(** COUPLEDCHAINS.energy_2x2_4site returns half of the energy per site. *)
Theorem C59_half_partial {K : Type} (k0 k1 : K) (kadd kmul ksub : K -> K -> K) (kopp : K -> K) :
  ring_theory k0 k1 kadd kmul ksub kopp (@eq K) -> forall L M d, 2 <= L -> 2 <= M -> forall E, expectation kadd kmul d E -> Z.even L = true -> Z.even M = true -> invariant k0 L M E v2s2 ->
  forall kdiv, (forall x m, m <> O -> kmul (ofnat k0 k1 kadd m) (kdiv x m) = x) -> forall rdm A B, (forall k, In k ks4 -> reduced k0 kadd kmul L M d E 4 (plaquette k) (rdm k)) ->
  exists e, cc_energy_2x2_4site k0 k1 kadd kmul kdiv d rdm A B = Ok e /\
  kmul (ofnat k0 k1 kadd 2) (kmul (ofnat k0 k1 kadd (length (sites L M))) e) = E (H_xy k0 kadd L M A B).
Proof. intros Kr L M d HL HM E HE EL EM HI kdiv Hd. exact (cc_four k0 k1 kadd kmul ksub kopp Kr L M d HL HM E HE EL EM HI kdiv Hd). Qed.
Print Assumptions C59_half_partial.

(** It is not the energy per site, nor the value of energy_2x1_1x2 (PlaqExamples.cc_one, nn_two). *)
Theorem C59_per_site_refuted  :
  exists (E : @operator Z -> Z) rdm e, expectation Z.add Z.mul 2 E /\ invariant 0 2 2 E v2s2 /\
  (forall k, In k ks4 -> reduced 0 Z.add Z.mul 2 2 2 E 4 (plaquette k) (rdm k)) /\
  cc_energy_2x2_4site 0 1 Z.add Z.mul kdivz 2 rdm Szz Szz = Ok e /\ ofnat 0 1 Z.add (length (sites 2 2)) * e <> E (H_xy 0 Z.add 2 2 Szz Szz).
Proof. exact cc_refuted. Qed.
Print Assumptions C59_per_site_refuted.

(** JQ.energy_2x2_4site is the energy per site: every bond and every pair of parallel bonds once.  Example: PlaqExamples.jq_value. *)
Theorem C60_four_site {K : Type} (k0 k1 : K) (kadd kmul ksub : K -> K -> K) (kopp : K -> K) :
  ring_theory k0 k1 kadd kmul ksub kopp (@eq K) -> forall L M d, 2 <= L -> 2 <= M -> forall E, expectation kadd kmul d E -> Z.even L = true -> Z.even M = true -> invariant k0 L M E v2s2 ->
  forall kdiv, (forall x m, m <> O -> kmul (ofnat k0 k1 kadd m) (kdiv x m) = x) -> forall rdm j1 q A Q, (forall k, In k ks4 -> reduced k0 kadd kmul L M d E 4 (plaquette k) (rdm k)) ->
  exists e, jq_energy_2x2_4site k0 k1 kadd kmul ksub kdiv d rdm j1 q A Q = Ok e /\
  kmul (ofnat k0 k1 kadd (length (sites L M))) e = E (H_jq k0 kadd kmul kopp L M j1 q A Q).
Proof. intros Kr L M d HL HM E HE EL EM HI kdiv Hd. exact (jq_four k0 k1 kadd kmul ksub kopp Kr L M d HL HM E HE EL EM HI kdiv Hd). Qed.
Print Assumptions C60_four_site.

(** The plaquette operator of JQ_C4V summed over all plaquettes is the same Hamiltonian. *)
Theorem C60_c4v {K : Type} (k0 k1 : K) (kadd kmul ksub : K -> K -> K) (kopp : K -> K) :
  ring_theory k0 k1 kadd kmul ksub kopp (@eq K) -> forall L M d, 2 <= L -> 2 <= M -> forall j1 q A Q hp, jq_c4v_hp k0 k1 kadd kmul ksub d j1 q A Q = Ok hp ->
  oeq d (osum k0 kadd (sites L M) (fun p => on k0 L M (plaquette p) (loc4 k0 hp))) (H_jq k0 kadd kmul kopp L M j1 q A Q).
Proof. intros Kr L M d HL HM. exact (jq_c4v_operator k0 k1 kadd kmul ksub kopp Kr L M d HL HM). Qed.
Print Assumptions C60_c4v.

(** COUPLEDLADDERS.energy_2x1_1x2 is the energy per site when the tiling respects the rows and the checkerboard.
    [ZI] is S^z on the first of two sites.  Example: PlaqExamples.ladders_value. *)
Theorem C61_energy {K : Type} (k0 k1 : K) (kadd kmul ksub : K -> K -> K) (kopp : K -> K) :
  ring_theory k0 k1 kadd kmul ksub kopp (@eq K) -> forall L M d, 2 <= L -> 2 <= M -> forall E, expectation kadd kmul d E ->
  forall v2s ks n, tiling L M v2s ks n -> invariant k0 L M E v2s -> forall kdiv, (forall x m, m <> O -> kmul (ofnat k0 k1 kadd m) (kdiv x m) = x) -> 
  forall rdm2x1 rdm1x2 alpha bz A Z ZI, twf A -> tdims A = [d; d; d; d] -> twf ZI -> tdims ZI = [d; d; d; d] ->
  (forall i j a b, (i < d)%nat -> (j < d)%nat -> (a < d)%nat -> (b < d)%nat -> loc2 k0 ZI [i; j] [a; b] = if Nat.eqb j b then loc1 k0 Z [i] [a] else k0) ->
  (forall p, In p (sites L M) -> parity k1 kopp (v2s p) = parity k1 kopp p) -> (forall p, In p (sites L M) -> Z.even (snd (v2s p)) = Z.even (snd p)) ->
  (forall k, In k ks -> reduced k0 kadd kmul L M d E 2 [k; px k] (rdm2x1 k)) -> (forall k, In k ks -> reduced k0 kadd kmul L M d E 2 [k; py k] (rdm1x2 k)) ->
  kmul (ofnat k0 k1 kadd (length (sites L M))) (ladders_energy k0 k1 kadd kmul kopp kdiv ks rdm2x1 rdm1x2 alpha bz A ZI) = E (H_ladders k0 k1 kadd kmul kopp L M alpha bz A Z).
Proof. intros Kr L M d HL HM E HE v2s ks n HT HI kdiv Hd. exact (ladders_energy_ok k0 k1 kadd kmul ksub kopp Kr L M d HL HM E HE v2s ks n HT HI kdiv Hd). Qed.
Print Assumptions C61_energy.

(** The operator in the chiral term of J1J2 is the cyclic exchange around the plaquette minus its inverse.
    Example: PlaqExamples.ring_up. *)
Theorem C62_ring_exchange {K : Type} (k0 k1 : K) (kadd kmul ksub : K -> K -> K) (kopp : K -> K) :
  ring_theory k0 k1 kadd kmul ksub kopp (@eq K) -> forall d, exists t, ring_exchange k0 k1 kadd kmul ksub d = Ok t /\ plaq_tensor d t /\
  forall i x, plaq_state d i -> plaq_state d x -> loc4 k0 t i x = ksub (delta k0 k1 (eqb x (turn i))) (delta k0 k1 (eqb i (turn x))).
Proof. intros Kr d. exact (ring_exchange_spec k0 k1 kadd kmul ksub kopp Kr d). Qed.
Print Assumptions C62_ring_exchange.
