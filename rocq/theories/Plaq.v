(** Model of plaquette Hamiltonians and of the energies computed from them:
    models/j1j2.py (get_hp 128-138, chiral term 149-174, energy_per_site 223-247),
    models/ising.py (get_h 61-74), models/hb.py (get_h 33-56, energies 94-150),
    models/hb_anisotropy.py (get_h 63-90, energies 92-193), models/jq.py (get_h 58-73, energy 83-139,
    JQ_C4V.get_h 352-371), models/coupledLadders.py (energy_2x1_1x2 85-139).

    Scalars are an abstract ring.  The local operators (exchange, S^z, ...) are arguments, reduced
    density matrices and correlation functions are oracles.  Not modelled: dtype and device,
    [_cast_to_real] (the energies are real by C37), broadcasting (all shapes agree here). *)
From Verif Require Import Base Tensor.
Open Scope list_scope.
Open Scope nat_scope.
Open Scope res_scope.

Section Plaq.
Context {K : Type} (k0 k1 : K) (kadd kmul ksub : K -> K -> K) (kopp : K -> K).
(** the numbers 0.5 and 0.25, and division by the number of sites *)
Variables (half quarter : K) (kdiv : K -> nat -> K).
(** [abs(x)>0] *)
Variable nonzero : K -> bool.
Variable d : nat.

Definition el (t : tensor K) (ix : list nat) : K := match tget t ix with Some v => v | None => k0 end.
Definition tzip (f : K -> K -> K) (a b : tensor K) : tensor K := mkT (tdims a) (map (fun p => f (fst p) (snd p)) (combine (tdata a) (tdata b))).
Definition tadd := tzip kadd.
Definition tsub := tzip ksub.
Definition tscl (c : K) (t : tensor K) : tensor K := tmap (kmul c) t.
Definition D8 : list nat := [d; d; d; d; d; d; d; d].
(** einsum('ijab,klcd->ijklabcd',A,B) *)
Definition two_two (A B : tensor K) : tensor K :=
  tbuild D8 (fun ix => match ix with [i; j; k; l; a; b; c; e] => kmul (el A [i; j; a; b]) (el B [k; l; c; e]) | _ => k0 end).
(** einsum('ia,jklbcd->ijklabcd',A,B) *)
Definition one_three (A B : tensor K) : tensor K :=
  tbuild D8 (fun ix => match ix with [i; j; k; l; a; b; c; e] => kmul (el A [i; a]) (el B [j; k; l; b; c; e]) | _ => k0 end).
(** einsum('ia,jb,kc,ld->ijklabcd',A,B,C,D) *)
Definition four_ones (A B C D : tensor K) : tensor K :=
  tbuild D8 (fun ix => match ix with [i; j; k; l; a; b; c; e] =>
    kmul (kmul (kmul (el A [i; a]) (el B [j; b])) (el C [k; c])) (el D [l; e]) | _ => k0 end).
(** SU2.I_N(N), groups/su2.py:37-47: the unit matrix of dimension d^N as a tensor of rank 2N *)
Definition id_n (N : nat) : tensor K :=
  tbuild (repeat d (2 * N)) (fun ix => if eqb (firstn N ix) (skipn N ix) then k1 else k0).
Definition perm (t : tensor K) (p : list nat) : res (tensor K) := tpermute k0 t p.

(** ** models/j1j2.py *)
Section J1J2.
Variables (j1 j2 j3 lmbd hz_stag : K) (SS_delta_zz SS SZ h_uni : tensor K).
(** 128-138; the powers of -1 *)
Definition sgn (c : coord) : K := if Z.even (fst c + snd c) then k1 else kopp k1.
Definition get_hp (c : coord) : res (tensor K) :=
  let nn := two_two SS_delta_zz (id_n 2) in
  let nnn := two_two SS (id_n 2) in
  let hz := one_three SZ (id_n 3) in
  let hu := one_three h_uni (id_n 3) in
  nn1 <- perm nn [0; 2; 1; 3; 4; 6; 5; 7] ;;
  nn2 <- perm nn [2; 3; 0; 1; 6; 7; 4; 5] ;;
  nn3 <- perm nn [3; 1; 2; 0; 7; 5; 6; 4] ;;
  nnn1 <- perm nnn [0; 3; 2; 1; 4; 7; 6; 5] ;;
  nnn2 <- perm nnn [2; 1; 0; 3; 6; 5; 4; 7] ;;
  hz1 <- perm hz [3; 0; 1; 2; 7; 4; 5; 6] ;;
  hz2 <- perm hz [2; 3; 0; 1; 6; 7; 4; 5] ;;
  hz3 <- perm hz [1; 2; 3; 0; 5; 6; 7; 4] ;;
  hu2 <- perm hu [2; 3; 0; 1; 6; 7; 4; 5] ;;
  hu1 <- perm hu [3; 0; 1; 2; 7; 4; 5; 6] ;;
  hu3 <- perm hu [1; 2; 3; 0; 5; 6; 7; 4] ;;
  Ok (tadd (tsub (tadd (tscl (kmul half j1) (tadd (tadd (tadd nn nn1) nn2) nn3))
                       (tscl j2 (tadd nnn1 nnn2)))
                 (tscl (kmul (kmul quarter hz_stag) (sgn c)) (tadd (tsub (tsub hz hz1) hz2) hz3)))
           (tscl quarter (tadd (tadd (tadd hu hu2) hu1) hu3))).

(** ** the ring exchange of the chiral term, 149-174, without the factor 1j *)
Definition P12 : tensor K :=
  tbuild [d; d; d; d] (fun ix => match ix with [i; j; a; b] => if Nat.eqb i b && Nat.eqb j a then k1 else k0 | _ => k0 end).
Definition ksum (l : list K) : K := fold_right kadd k0 l.
(** torch.tensordot(A,B,([4,5,6,7],[0,1,2,3])) *)
Definition tdot4 (A B : tensor K) : tensor K :=
  tbuild D8 (fun ix => ksum (map (fun m => kmul (el A (firstn 4 ix ++ m)) (el B (m ++ skipn 4 ix))) (indices [d; d; d; d]))).
(** [P4.view(16,16).t().view(2,...,2)] *)
Definition transp (A : tensor K) : tensor K := tbuild D8 (fun ix => el A (skipn 4 ix ++ firstn 4 ix)).
Definition ring_exchange : res (tensor K) :=
  let P12II := two_two P12 (id_n 2) in
  PI12I <- perm P12II [3; 0; 1; 2; 7; 4; 5; 6] ;;
  PII12 <- perm P12II [2; 3; 0; 1; 6; 7; 4; 5] ;;
  let P4 := tdot4 PI12I P12II in
  let P4 := tdot4 PII12 P4 in
  perm (tsub P4 (transp P4)) [0; 1; 3; 2; 4; 5; 7; 6].

(** einsum('ijklabcd,ijklabcd',a,b) and the like *)
Definition dot (a b : tensor K) : K := ksum (map (fun p => kmul (fst p) (snd p)) (combine (tdata a) (tdata b))).
(** energy_per_site, 223-247: [sites] are the keys of the state, [nnnn] is eval_nnnn_per_site *)
Definition energy_per_site (sites : list coord) (rdm2x2 : coord -> tensor K) (chiral : tensor K) (nnnn : coord -> K) : res K :=
  r <- foldM (fun (e : K * K) c =>
         hp <- get_hp c ;;
         let ep := kadd (fst e) (dot (rdm2x2 c) hp) in
         let ep := if nonzero lmbd then kadd ep (kmul lmbd (dot (rdm2x2 c) chiral)) else ep in
         let en := if nonzero j3 then kadd (snd e) (kmul j3 (nnnn (0, 0)%Z)) else snd e in
         Ok (ep, en)) sites (k0, k0) ;;
  Ok (kdiv (kadd (fst r) (snd r)) (length sites)).
(** eval_nnnn_per_site, 27-44, with corr the result lists of corrf_1sO1sO for distance 2 *)
Inductive lop := Lz | Lp | Lm.
Definition eval_nnnn (corr : coord -> coord -> lop -> lop -> list K) (c : coord) : res K :=
  let get dir a b := match nth_error (corr c dir a b) 1 with Some v => Ok v | None => Err IndexError end in
  szx <- get (1, 0)%Z Lz Lz ;; smx <- get (1, 0)%Z Lm Lp ;; spx <- get (1, 0)%Z Lp Lm ;;
  szy <- get (0, 1)%Z Lz Lz ;; spy <- get (0, 1)%Z Lp Lm ;; smy <- get (0, 1)%Z Lm Lp ;;
  Ok (kadd (kadd szx szy) (kmul half (kadd (kadd (kadd spx spy) smx) smy))).
End J1J2.

(** ** models/ising.py:61-74: [SzSz] is 4 Sz x Sz, [Sx] is S+ + S- *)
Definition ising_hp (q hx : K) (SzSz Sx Id : tensor K) : res (tensor K) :=
  let bond := two_two SzSz (id_n 2) in
  let plaq := two_two SzSz SzSz in
  let site := four_ones Sx Id Id Id in
  bond1 <- perm bond [0; 2; 1; 3; 4; 6; 5; 7] ;;
  Ok (tsub (tsub (tsub (tscl (kopp k1) bond) bond1) (tscl q plaq)) (tscl hx site)).

(** ** models/hb.py:33-56 and models/hb_anisotropy.py:63-90 (HB uses the same operator in both directions) *)
Definition hb_h (h2_x h2_y : tensor K) : res (tensor K * tensor K * tensor K) :=
  let hx := two_two h2_x (id_n 2) in
  let hy := two_two h2_y (id_n 2) in
  hx1 <- perm hx [2; 3; 0; 1; 6; 7; 4; 5] ;;
  hy1 <- perm hy [0; 2; 1; 3; 4; 6; 5; 7] ;;
  hy2 <- perm hy [2; 0; 3; 1; 6; 4; 7; 5] ;;
  let hp_h := tadd hx hx1 in
  let hp_v := tadd hy1 hy2 in
  Ok (hp_h, hp_v, tadd hp_h hp_v).
(** hb.py:94-103, hb_anisotropy.py:139-147 *)
Definition energy_2x1_1x2 (sites : list coord) (rdm2x1 rdm1x2 : coord -> tensor K) (h2_x h2_y : tensor K) : K :=
  kdiv (fold_left (fun e c => kadd (kadd e (dot (rdm2x1 c) h2_x)) (dot (rdm1x2 c) h2_y)) sites k0) (length sites).
Definition four_plaquettes (rdm2x2 : coord -> tensor K) (hp_h hp_v : tensor K) : K :=
  kadd (kadd (kadd (dot (rdm2x2 (0, 0)%Z) hp_h) (dot (rdm2x2 (1, 0)%Z) hp_v)) (dot (rdm2x2 (0, 1)%Z) hp_v)) (dot (rdm2x2 (1, 1)%Z) hp_h).
(** hb.py:140-150: returns [energy] *)
Definition hb_energy_2x2_4site (rdm2x2 : coord -> tensor K) (h2 : tensor K) : res K :=
  ' (hp_h, hp_v, _) <- hb_h h2 h2 ;; Ok (four_plaquettes rdm2x2 hp_h hp_v).
(** hb_anisotropy.py:182-193: divides by 8 *)
Definition cc_energy_2x2_4site (rdm2x2 : coord -> tensor K) (h2_x h2_y : tensor K) : res K :=
  ' (hp_h, hp_v, _) <- hb_h h2_x h2_y ;; Ok (kdiv (four_plaquettes rdm2x2 hp_h hp_v) 8).

(** ** models/jq.py:58-73: [SSp] is SS - 1/4 *)
Definition jq_h (j1 q : K) (SS SSp : tensor K) : res (tensor K * tensor K) :=
  let qq := two_two SSp SSp in
  qq1 <- perm qq [0; 2; 1; 3; 4; 6; 5; 7] ;;
  let h4 := tadd qq qq1 in
  let h := two_two SS (id_n 2) in
  h1 <- perm h [2; 3; 0; 1; 6; 7; 4; 5] ;;
  h2 <- perm h [0; 2; 1; 3; 4; 6; 5; 7] ;;
  h3 <- perm h [2; 0; 3; 1; 6; 4; 7; 5] ;;
  Ok (tsub (tscl j1 (tadd h h1)) (tscl q h4), tsub (tscl j1 (tadd h2 h3)) (tscl q h4)).
(** jq.py:119-139 *)
Definition jq_energy_2x2_4site (rdm2x2 : coord -> tensor K) (j1 q : K) (SS SSp : tensor K) : res K :=
  ' (hp_h, hp_v) <- jq_h j1 q SS SSp ;; Ok (kdiv (four_plaquettes rdm2x2 hp_h hp_v) 4).
(** JQ_C4V, jq.py:352-371 *)
Definition jq_c4v_hp (j1 q : K) (SS SSp : tensor K) : res (tensor K) :=
  let qq := two_two SSp SSp in
  qq1 <- perm qq [0; 2; 1; 3; 4; 6; 5; 7] ;;
  let h := two_two SS (id_n 2) in
  h2 <- perm h [0; 2; 1; 3; 4; 6; 5; 7] ;;
  Ok (tsub (tscl j1 (tadd h h2)) (tscl q (tadd qq qq1))).

(** ** models/coupledLadders.py:17-25, 85-139 *)
Definition staggered (B : K) (c : coord) : K := kmul B (if Z.even (fst c + snd c) then k1 else kopp k1).
Definition ladders_energy (sites : list coord) (rdm2x1 rdm1x2 : coord -> tensor K) (alpha bz : K) (h2 h1 : tensor K) : K :=
  kdiv (fold_left (fun e c =>
    let e := kadd e (dot (rdm2x1 c) h2) in
    let e := kadd e (dot (rdm1x2 c) (if Z.even (snd c) then h2 else tscl alpha h2)) in
    kadd e (dot (rdm1x2 c) (tscl (staggered bz c) h1))) sites k0) (length sites).
End Plaq.
