(** Model of the energies of single-site states whose sublattice B is the rotated sublattice A:
    models/j1j2.py (operators 103-143 and 172-174, J1J2.energy_2x2_1site_BP 187-222,
    J1J2_C4V_BIPARTITE.energy_1x1 582-596, energy_1x1_lowmem 618-640, energy_1x1_tiled 664-686),
    models/j1j2lambda.py (hp 84-94, 122-125, energy_1x1 149-163), models/jq.py (JQ_C4V_BIPARTITE.get_h 517-539,
    energy_1x1 581-583), models/coupledLadders.py (COUPLEDLADDERS_D2_BIPARTITE.get_h 353-360, energy_2x1_1x2 411-431),
    models/akltS2.py (AKLTS2_C4V_BIPARTITE.energy_1x1 244-246), models/ising.py (ISING_C4V.energy_1x1_nn 247-252).

    As in [Plaq] scalars are an abstract ring, the local operators are arguments, reduced density matrices and
    correlation functions are oracles.  [_cast_to_real] is left out. *)
From Verif Require Import Base Tensor Plaq.
Open Scope list_scope.
Open Scope nat_scope.
Open Scope res_scope.

Section Bip.
Context {K : Type} (k0 k1 : K) (kadd kmul ksub : K -> K -> K) (kopp : K -> K).
Variables (half quarter two : K) (kdiv : K -> nat -> K).
Variable nonzero : K -> bool.
Variable d : nat.
Notation el := (el k0).
Notation dot := (dot k0 kadd kmul).
Notation tadd := (tadd kadd).
Notation tsub := (tsub ksub).
Notation tscl := (tscl kmul).
Notation ksum := (ksum k0 kadd).
Notation D4 := [d; d; d; d].
Notation get_hp := (get_hp k0 k1 kadd kmul ksub kopp half quarter d).
Notation two_two := (two_two k0 kmul d).
Notation id_n := (id_n k0 k1 d).
Notation perm := (perm k0).

(** einsum('ki,kjcb,ca->ijab',R,t,R) *)
Definition rot_first (r t : tensor K) : tensor K :=
  tbuild D4 (fun ix => match ix with [i; j; a; b] =>
    ksum (map (fun kc => match kc with [k; c] => kmul (kmul (el r [k; i]) (el t [k; j; c; b])) (el r [c; a]) | _ => k0 end) (indices [d; d])) | _ => k0 end).
(** einsum('jl,ilak,kb->ijab',R,t,R) *)
Definition rot_second (r t : tensor K) : tensor K :=
  tbuild D4 (fun ix => match ix with [i; j; a; b] =>
    ksum (map (fun lk => match lk with [l; k] => kmul (kmul (el r [j; l]) (el t [i; l; a; k])) (el r [k; b]) | _ => k0 end) (indices [d; d])) | _ => k0 end).
(** einsum('xj,yk,ixylauvd,ub,vc->ijklabcd',R,R,t,R,R) *)
Definition rot_mid (r t : tensor K) : tensor K :=
  tbuild (D8 d) (fun ix => match ix with [i; j; k; l; a; b; c; e] =>
    ksum (map (fun xyuv => match xyuv with [x; y; u; v] =>
      kmul (kmul (kmul (kmul (el r [x; j]) (el r [y; k])) (el t [i; x; y; l; a; u; v; e])) (el r [u; b])) (el r [v; c]) | _ => k0 end) (indices D4)) | _ => k0 end).
(** einsum('ij,ab->iajb',A,B) *)
Definition kron (A B : tensor K) : tensor K :=
  tbuild D4 (fun ix => match ix with [i; a; j; b] => kmul (el A [i; j]) (el B [a; b]) | _ => k0 end).
Definition eye : tensor K := tbuild [d; d] (fun ix => match ix with [i; j] => if Nat.eqb i j then k1 else k0 | _ => k0 end).
Definition tneg (t : tensor K) : tensor K := tmap kopp t.

(** ** models/j1j2.py *)
Section J1J2.
Variables (j1 j2 j3 lmbd hz : K) (SSd SS SZ h_uni rot chiral : tensor K).
(** 140-141 *)
Definition hp_rot : res (tensor K) := hp <- get_hp j1 j2 hz SSd SS SZ h_uni (0, 0)%Z ;; Ok (rot_mid rot hp).
(** 172-174; without lambda it is zero, 143-144 *)
Definition hp_chiral_rot : tensor K := if nonzero lmbd then tscl lmbd (rot_mid rot chiral) else tscl k0 (id_n 4).
(** 187-222: [uni_zx] is self.h_uni[:2].norm()==0, [nnnn] is eval_nnnn_per_site *)
Definition energy_BP (uni_zx : bool) (rdm2x2 : coord -> tensor K) (nnnn : coord -> res K) : res K :=
  if negb uni_zx then Err AssertionError else
  hp <- hp_rot ;;
  let r := rdm2x2 (0, 0)%Z in
  let e := dot r hp in
  let e := if nonzero lmbd then kadd e (dot r hp_chiral_rot) else e in
  if nonzero j3 then n <- nnnn (0, 0)%Z ;; Ok (kadd e (kmul j3 n)) else Ok e.
(** 582-596 *)
Definition energy_1x1 (rdm2x2 rdm3x1 : tensor K) : res K :=
  hp <- hp_rot ;;
  let e := dot rdm2x2 hp in
  let e := if nonzero lmbd then kadd e (dot rdm2x2 hp_chiral_rot) else e in
  Ok (if nonzero j3 then kadd e (kmul (kmul two j3) (dot rdm3x1 SS)) else e).
(** 108-111, 116-117 *)
Definition hz_2x1_rot : tensor K := rot_first rot (tadd (kron SZ eye) (kron eye (tneg SZ))).
Definition huni_2x1_rot : tensor K := rot_first rot (tadd (kron h_uni eye) (kron eye h_uni)).
(** 618-640 and 664-686: [uni] is abs(self.h_uni.norm())>0 *)
Definition energy_1x1_lowmem (uni : bool) (rdmNN rdmNNN rdm3x1 : tensor K) : res K :=
  if nonzero lmbd then Err AssertionError else
  let e := ksub (kmul (kmul two j1) (dot rdmNN (rot_first rot SSd))) (kmul (kmul half hz) (dot rdmNN hz_2x1_rot)) in
  let e := if uni then kadd e (kmul half (dot rdmNN huni_2x1_rot)) else e in
  let e := if nonzero j2 then kadd e (kmul (kmul two j2) (dot rdmNNN SS)) else e in
  Ok (if nonzero j3 then kadd e (kmul (kmul two j3) (dot rdm3x1 SS)) else e).

(** ** models/j1j2lambda.py: 84-94 *)
Definition lambda_hp : res (tensor K) :=
  let nn := two_two SSd (id_n 2) in
  let nnn := two_two SS (id_n 2) in
  nn1 <- perm nn [0; 2; 1; 3; 4; 6; 5; 7] ;;
  nn2 <- perm nn [2; 3; 0; 1; 6; 7; 4; 5] ;;
  nn3 <- perm nn [3; 1; 2; 0; 7; 5; 6; 4] ;;
  nnn1 <- perm nnn [0; 3; 2; 1; 4; 7; 6; 5] ;;
  nnn2 <- perm nnn [2; 1; 0; 3; 6; 5; 4; 7] ;;
  Ok (rot_mid rot (tsub (tadd (tscl (kmul half j1) (tadd (tadd (tadd nn nn1) nn2) nn3)) (tscl j2 (tadd nnn1 nnn2)))
                        (tscl (kmul quarter hz) (four_ones k0 kmul d SZ (tneg SZ) (tneg SZ) SZ)))).
(** 149-163 with 122-125 *)
Definition lambda_energy_1x1 (rdm2x2 rdm3x1 : tensor K) : res K :=
  hp <- lambda_hp ;;
  let e := dot rdm2x2 (tadd hp (tscl lmbd (rot_mid rot chiral))) in
  Ok (if nonzero j3 then kadd e (kmul (kmul two j3) (dot rdm3x1 SS)) else e).
End J1J2.

(** ** models/jq.py:517-539, 581-583 *)
Definition jq_bp_hp (j1 q : K) (SS rot : tensor K) : res (tensor K) :=
  let SS_rot := rot_first rot SS in
  let SSp := tsub SS_rot (tscl quarter (id_n 2)) in
  let qq := two_two SSp SSp in
  qq1 <- perm qq [0; 2; 1; 3; 4; 6; 5; 7] ;;
  let h := two_two SS_rot (id_n 2) in
  h1 <- perm h [0; 2; 1; 3; 4; 6; 5; 7] ;;
  Ok (tsub (tscl j1 (tadd h h1)) (tscl q (tadd qq qq1))).
Definition jq_bp_energy (j1 q : K) (SS rot rdm2x2 : tensor K) : res K :=
  hp <- jq_bp_hp j1 q SS rot ;; Ok (dot rdm2x2 hp).

(** ** models/coupledLadders.py:353-360, 411-431 *)
(** einsum('ijab,jiba',a,b) *)
Definition dot_swapped (a b : tensor K) : K :=
  ksum (map (fun ix => match ix with [i; j; x; y] => kmul (el a [i; j; x; y]) (el b [j; i; y; x]) | _ => k0 end) (indices D4)).
Definition ladders_bp_energy (sites : list coord) (rdm2x1 rdm1x2 : coord -> tensor K) (alpha : K) (SS rot : tensor K) : K :=
  let h := rot_first rot SS in
  kdiv (fold_left (fun e c =>
    let e := kadd e (dot (rdm2x1 c) h) in
    kadd e (if Z.even (snd c) then dot (rdm1x2 c) h else dot_swapped (rdm1x2 c) (tscl alpha h))) sites k0) (length sites).

(** ** models/akltS2.py:244-246 *)
Definition aklt_bp_energy (rdm2x1 h rot : tensor K) : K := dot rdm2x1 (rot_second rot h).

(** ** models/ising.py:247-252 *)
(** einsum('ijaj,ia',r,A) *)
Definition dot_first (r A : tensor K) : K :=
  ksum (map (fun ix => match ix with [i; j; a] => kmul (el r [i; j; a; j]) (el A [i; a]) | _ => k0 end) (indices [d; d; d])).
Definition ising_nn_energy (q hx : K) (SzSz Sx rdm2x1 : tensor K) : res K :=
  if nonzero q then Err AssertionError else
  Ok (ksub (kmul (kopp two) (dot rdm2x1 SzSz)) (kmul hx (dot_first rdm2x1 Sx))).
End Bip.
