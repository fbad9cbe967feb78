(** The spin operators of groups/su2.py are as the theorems need them; counterexamples. *)
From Coq Require Import Lia Ring Permutation Reals Lra QArith Qcanon.
From Verif Require Import Base BaseLemmas Tensor TensorLemmas Su2 Su2Spec Su2Proofs Plaq PlaqSpec PlaqProofs PlaqProofs2 PlaqProofs3 PlaqProofs9 PlaqProofs10 Bip BipSpec BipProofs BipProofs2 BipProofs3 BipProofs4 BipProofs5 BipProofs6 BipProofs7.
Open Scope list_scope.
Open Scope Z_scope.
Open Scope res_scope.

(** ** the spin operators *)
Section Spin.
Variable m : nat.
Definition sflip (i : nat) : nat := (m - 1 - i)%nat.
Definition ssign (i : nat) : R := ((-1) ^ i)%R.
Lemma spin_flip : signed_flip 1%R Rmult m sflip ssign.
Proof.
  split; [intros i Hi; unfold sflip, ssign; split; [lia|]; split; [lia|]; apply sq_m1|]. exists ((-1) ^ (m - 1))%R. intros i Hi. unfold ssign, sflip. rewrite m1_add. f_equal. lia.
Qed.
Lemma spin_flip_odd : Nat.odd m = true -> forall i, (i < m)%nat -> (ssign i * ssign (sflip i) = 1)%R.
Proof.
  intros Ho i Hi. unfold ssign, sflip. rewrite m1_add. replace (i + (m - 1 - i))%nat with (m - 1)%nat by lia. apply Nat.odd_spec in Ho. destruct Ho as [k Hk]. replace (m - 1)%nat with (k + k)%nat by lia. rewrite pow_add. apply sq_m1.
Qed.
Lemma spin_rot t : get_rot_op m = Ok t -> rotation_matrix 0%R m sflip ssign t.
Proof. intros Et. destruct (get_rot m) as (t' & E & _ & _ & G). rewrite Et in E. injection E as <-. intros i j Hi Hj. change (loc1 0%R t [i] [j]) with (mel t i j). rewrite G by assumption. reflexivity. Qed.
Lemma fl i : (i < m)%nat -> (sflip i < m)%nat. Proof. unfold sflip. lia. Qed.
Lemma sgn2 i a : (i < m)%nat -> (a < m)%nat -> (ssign (sflip i) * ssign (sflip a) = ssign i * ssign a)%R.
Proof.
  intros Hi Ha. unfold ssign. destruct (proj2 spin_flip) as [e He]. pose proof (He i Hi) as E1. pose proof (He a Ha) as E2. unfold ssign in *.
  pose proof (sq_m1 i) as S1. pose proof (sq_m1 a) as S2. pose proof (sq_m1 (sflip i)) as S3.
  assert (Q1 : ((-1) ^ sflip i = (-1) ^ i * e)%R) by (rewrite <- E1; ring [S1]). assert (Q2 : ((-1) ^ sflip a = (-1) ^ a * e)%R) by (rewrite <- E2; ring [S2]).
  assert (S4 : (e * e = 1)%R) by (rewrite <- E1; ring [S1 S3]). rewrite Q1, Q2. ring [S4].
Qed.
Lemma conj_el (B C : nat -> nat -> R) i a : (i < m)%nat -> (a < m)%nat -> meq m (mmul m (mmul m (rot m) B) (mtrans (rot m))) C -> (ssign (sflip i) * ssign (sflip a) * B (sflip i) (sflip a) = C i a)%R.
Proof. intros Hi Ha H. rewrite <- (H i a Hi Ha), rot_r, rot_l by assumption. rewrite sgn2 by assumption. unfold ssign, sflip. ring. Qed.
Lemma spin_sz t : get_op m OpSz = Ok t -> forall i a, (i < m)%nat -> (a < m)%nat -> turned 1%R Rmult sflip ssign [true] (loc1 0%R t) [i] [a] = (- loc1 0%R t [i] [a])%R.
Proof.
  intros Et i a Hi Ha. destruct (get_sz m) as (t' & E & _ & _ & G). rewrite Et in E. injection E as <-. unfold BipSpec.turned, signs, flips. cbn [combine map fold_right fst snd].
  change (loc1 0%R t [sflip i] [sflip a]) with (mel t (sflip i) (sflip a)). change (loc1 0%R t [i] [a]) with (mel t i a). rewrite !G by (try assumption; now apply fl).
  destruct (rotation_explicit m) as (_ & _ & H & _). pose proof (conj_el _ _ i a Hi Ha H) as Q. unfold mscale in Q. lra.
Qed.
Lemma spin_SS x y t : SS m x y y = Ok t -> rotation_invariant 1%R Rmult m sflip ssign 2 (loc2 0%R t).
Proof.
  intros Et i a Hi Ha. apply within2 in Hi, Ha. destruct Hi as (i0 & i1 & -> & ? & ?), Ha as (a0 & a1 & -> & ? & ?).
  destruct (SS_mel m x y y) as (t' & Sz & Sp & Sm & E & _ & _ & _ & D & _ & _ & _ & G). rewrite Et in E. injection E as <-.
  unfold BipSpec.turned, signs, flips. cbn [repeat combine map fold_right fst snd].
  change (loc2 0%R t [sflip i0; sflip i1] [sflip a0; sflip a1]) with (mel4 t (sflip i0) (sflip i1) (sflip a0) (sflip a1)). change (loc2 0%R t [i0; i1] [a0; a1]) with (mel4 t i0 i1 a0 a1).
  rewrite !G by (try assumption; now apply fl). destruct (rotation_explicit m) as (_ & _ & HZ & HP & HM).
  pose proof (conj_el _ _ i0 a0 ltac:(assumption) ltac:(assumption) HZ) as Z0. pose proof (conj_el _ _ i1 a1 ltac:(assumption) ltac:(assumption) HZ) as Z1.
  pose proof (conj_el _ _ i0 a0 ltac:(assumption) ltac:(assumption) HP) as P0. pose proof (conj_el _ _ i1 a1 ltac:(assumption) ltac:(assumption) HP) as P1.
  pose proof (conj_el _ _ i0 a0 ltac:(assumption) ltac:(assumption) HM) as M0. pose proof (conj_el _ _ i1 a1 ltac:(assumption) ltac:(assumption) HM) as M1.
  unfold mscale in *.
  transitivity (x * ((ssign (sflip i0) * ssign (sflip a0) * zed m (sflip i0) (sflip a0)) * (ssign (sflip i1) * ssign (sflip a1) * zed m (sflip i1) (sflip a1)))
    + 5/10 * y * ((ssign (sflip i0) * ssign (sflip a0) * up m (sflip i0) (sflip a0)) * (ssign (sflip i1) * ssign (sflip a1) * dn m (sflip i1) (sflip a1)))
    + 5/10 * y * ((ssign (sflip i0) * ssign (sflip a0) * dn m (sflip i0) (sflip a0)) * (ssign (sflip i1) * ssign (sflip a1) * up m (sflip i1) (sflip a1))))%R; [ring|].
  rewrite Z0, Z1, P0, P1, M0, M1. ring.
Qed.
End Spin.

(** ** the ring exchange, the four-spin product *)
Section Inv.
Context {K : Type} (k0 k1 : K) (kadd kmul ksub : K -> K -> K) (kopp : K -> K).
Hypothesis Kr : ring_theory k0 k1 kadd kmul ksub kopp (@eq K).
Add Ring KringB8 : Kr.
Notation "a *k b" := (kmul a b) (at level 40, left associativity).
Variables (d : nat) (flip : nat -> nat) (sg : nat -> K).
Hypothesis SF : signed_flip k1 kmul d flip sg.
Notation flt := (flip_lt k1 kmul d flip sg SF).
Notation ssq := (sg_sq k1 kmul d flip sg SF).
Lemma within_flips n i : within d n i -> within d n (flips flip (repeat true n) i).
Proof.
  intros [L F]. split; [unfold flips; rewrite map_length, combine_length, repeat_length; lia|]. unfold flips. apply Forall_forall. intros x Hx. apply in_map_iff in Hx. destruct Hx as ([b y] & <- & Hy). apply in_combine_r in Hy. rewrite Forall_forall in F. cbn [fst snd]. destruct b; [apply flt|]; now apply F.
Qed.
Lemma inv_scale n c (O O' : local) : (forall i a, within d n i -> within d n a -> O' i a = c *k O i a) -> rotation_invariant k1 kmul d flip sg n O -> rotation_invariant k1 kmul d flip sg n O'.
Proof.
  intros H HO i a Hi Ha. rewrite (H i a Hi Ha), <- (HO i a Hi Ha). unfold BipSpec.turned. rewrite H by (now apply within_flips). ring.
Qed.
Lemma flips_turn (i : list nat) : length i = 4%nat -> flips flip [true; true; true; true] (turn i) = turn (flips flip [true; true; true; true] i).
Proof. intros L. destruct i as [|a [|b [|c [|e [|]]]]]; try discriminate. reflexivity. Qed.
Lemma flips_inj (i x : list nat) : within d 4 i -> within d 4 x -> flips flip [true; true; true; true] i = flips flip [true; true; true; true] x -> i = x.
Proof.
  intros [Li Fi] [Lx Fx] H. destruct i as [|i0 [|i1 [|i2 [|i3 [|]]]]]; try discriminate. destruct x as [|x0 [|x1 [|x2 [|x3 [|]]]]]; try discriminate. unfold flips in H. cbn [combine map fst snd] in H.
  repeat match goal with F : Forall _ (_ :: _) |- _ => apply Forall_cons_iff in F; destruct F as [? F] end.
  injection H as I0 I1 I2 I3. repeat f_equal; now apply (flip_inj k1 kmul d flip sg SF).
Qed.
Lemma within_turn i : within d 4 i -> within d 4 (turn i).
Proof.
  intros [Li Fi]. destruct i as [|i0 [|i1 [|i2 [|i3 [|]]]]]; try discriminate. repeat match goal with F : Forall _ (_ :: _) |- _ => apply Forall_cons_iff in F; destruct F as [? F] end. split; [reflexivity|]. cbn. repeat (apply Forall_cons; [assumption|]). constructor.
Qed.
Lemma signs_turn i : within d 4 i -> signs k1 kmul flip sg [true; true; true; true] i *k signs k1 kmul flip sg [true; true; true; true] (turn i) = k1.
Proof.
  intros [Li Fi]. destruct i as [|i0 [|i1 [|i2 [|i3 [|]]]]]; try discriminate. repeat match goal with F : Forall _ (_ :: _) |- _ => apply Forall_cons_iff in F; destruct F as [? F] end.
  unfold signs. cbn [turn combine map fold_right fst snd].
  pose proof (ssq (flip i0) (flt i0 ltac:(assumption))) as S0. pose proof (ssq (flip i1) (flt i1 ltac:(assumption))) as S1. pose proof (ssq (flip i2) (flt i2 ltac:(assumption))) as S2. pose proof (ssq (flip i3) (flt i3 ltac:(assumption))) as S3. ring [S0 S1 S2 S3].
Qed.
Lemma delta_turn i x : within d 4 i -> within d 4 x ->
  signs k1 kmul flip sg [true; true; true; true] i *k signs k1 kmul flip sg [true; true; true; true] x *k delta k0 k1 (eqb (flips flip [true; true; true; true] x) (turn (flips flip [true; true; true; true] i))) = delta k0 k1 (eqb x (turn i)).
Proof.
  intros Hi Hx. rewrite <- flips_turn by apply Hi. destruct (eqb x (turn i)) eqn:Eq.
  - apply (proj1 (BaseLemmas.eqb_true _ _)) in Eq. subst x. rewrite signs_turn by exact Hi. rewrite (proj2 (BaseLemmas.eqb_true _ _) eq_refl). unfold delta. ring.
  - destruct (eqb (flips flip [true; true; true; true] x) _) eqn:Eq'; [|unfold delta; ring]. exfalso. apply (proj1 (BaseLemmas.eqb_true _ _)) in Eq'. apply flips_inj in Eq'; [|exact Hx | now apply within_turn]. rewrite (proj2 (BaseLemmas.eqb_true _ _) Eq') in Eq. discriminate.
Qed.
Theorem ring_invariant t c t' : ring_exchange k0 k1 kadd kmul ksub d = Ok t -> t' = tscl kmul c t -> rotation_invariant k1 kmul d flip sg 4 (loc4 k0 t').
Proof.
  intros Et ->. destruct (ring_exchange_spec k0 k1 kadd kmul ksub kopp Kr d) as (u & Eu & G & H). rewrite Et in Eu. injection Eu as <-.
  apply (inv_scale 4 c (loc4 k0 t)); [intros i a Hi Ha; now apply (loc4_scl k0 kmul d)|]. intros i x Hi Hx. unfold BipSpec.turned. change (repeat true 4) with [true; true; true; true].
  rewrite !H; try assumption.
  - rewrite <- (delta_turn i x), <- (delta_turn x i) by assumption. ring.
  - exact (within_flips 4 i Hi).
  - exact (within_flips 4 x Hx).
Qed.
Theorem four_invariant Z' : (forall i a, (i < d)%nat -> (a < d)%nat -> turned k1 kmul flip sg [true] (loc1 k0 Z') [i] [a] = kopp (loc1 k0 Z' [i] [a])) ->
  rotation_invariant k1 kmul d flip sg 4 (prod1111 k0 kmul Z' Z' Z' Z').
Proof.
  intros H i x [Li Fi] [Lx Fx]. destruct i as [|i0 [|i1 [|i2 [|i3 [|]]]]]; try discriminate. destruct x as [|x0 [|x1 [|x2 [|x3 [|]]]]]; try discriminate.
  repeat match goal with F : Forall _ (_ :: _) |- _ => apply Forall_cons_iff in F; destruct F as [? F] end.
  unfold prod1111 at 2.
  transitivity (kopp (loc1 k0 Z' [i0] [x0]) *k kopp (loc1 k0 Z' [i1] [x1]) *k kopp (loc1 k0 Z' [i2] [x2]) *k kopp (loc1 k0 Z' [i3] [x3])); [|ring]. rewrite <- !H by assumption.
  unfold BipSpec.turned, signs, flips, prod1111. cbn [repeat combine map fold_right fst snd]. ring.
Qed.
End Inv.

(** ** counterexamples *)
Lemma basis_homogeneous {K} (k0 : K) L M c : homogeneous k0 L M (basis c).
Proof. intros p ps O _. now rewrite !basis_on, map_length. Qed.
Lemma basis_isotropic {K} (k0 : K) L M c : isotropic k0 L M (basis c).
Proof. intros ps O. now rewrite !basis_on, map_length. Qed.
Notation q0 := (Q2Qc (0 # 1)). Notation q1 := (Q2Qc (1 # 1)). Notation qh := (Q2Qc (1 # 2)). Notation qq := (Q2Qc (1 # 4)). Notation q2 := (Q2Qc (2 # 1)).
Definition nzq (x : Qc) : bool := negb (Qc_eq_bool x q0).
Definition Zq : tensor Qc := mkT [2; 2]%nat [q1; q0; q0; Qcopp q1].
Definition Rq : tensor Qc := mkT [2; 2]%nat [q0; q1; Qcopp q1; q0].
Definition O4q : tensor Qc := tzeros q0 [2; 2; 2; 2]%nat.
Definition O2q : tensor Qc := tzeros q0 [2; 2]%nat.
Definition O8q : tensor Qc := tzeros q0 (D8 2).
Definition flip2 (i : nat) : nat := (1 - i)%nat.
Definition sign2 (i : nat) : Qc := match i with O => q1 | _ => Qcopp q1 end.
Definition valq (r : res Qc) : option Q := match r with Ok x => Some (this x) | Err _ => None end.
Lemma signed2 : signed_flip q1 Qcmult 2 flip2 sign2.
Proof. split; [|exists (Qcopp q1)]; intros [|[|i]] Hi; try lia; cbn; repeat split; try lia; try (apply Qc_is_canon; reflexivity). Qed.
Lemma rot2 : rotation_matrix q0 2 flip2 sign2 Rq.
Proof. intros [|[|i]] [|[|j]] Hi Hj; try lia; reflexivity. Qed.
Notation state L M E := (expectation Qcplus Qcmult 2 E /\ homogeneous q0 L M E /\ isotropic q0 L M E).
Notation reduced2 L M E := (reduced q0 Qcplus Qcmult L M 2 E).
Lemma up_state : state 2 2 (basis 0 : @operator Qc -> Qc).
Proof. split; [apply basis_expectation; lia|]. split; [apply basis_homogeneous | apply basis_isotropic]. Qed.
Lemma up_reduced n ps : length ps = n -> reduced2 2 2 (basis 0) n ps (basis_rdm q0 q1 2 0 n).
Proof. intros H. apply (basis_reduced q0 q1 Qcplus Qcmult Qcminus Qcopp Qcrt); [lia | exact H]. Qed.
Definition e_full (hz : Qc) : res Qc := energy_1x1 q0 q1 Qcplus Qcmult Qcminus Qcopp qh qq q2 nzq 2 q0 q0 q0 q0 hz O4q O4q Zq O2q Rq O8q (basis_rdm q0 q1 2 0 4) O4q.
Definition e_low (hz : Qc) : res Qc := energy_1x1_lowmem q0 q1 Qcplus Qcmult Qcminus Qcopp qh q2 nzq 2 q0 q0 q0 q0 hz O4q O4q Zq O2q Rq false (basis_rdm q0 q1 2 0 2) (basis_rdm q0 q1 2 0 2) O4q.
Lemma e_full_1 : valq (e_full q1) = Some (-1 # 1)%Q.
Proof. vm_compute. reflexivity. Qed.
Lemma e_low_1 : valq (e_low q1) = Some (1 # 1)%Q.
Proof. vm_compute. reflexivity. Qed.
Lemma valq_ok r v : valq r = Some v -> exists e, r = Ok e /\ this e = v.
Proof. destruct r as [e|]; cbn; intros H; [injection H as <-; eauto | discriminate]. Qed.
Lemma lowmem_refuted : exists (E : @operator Qc -> Qc) (r rNN r3 : tensor Qc) hz e e', state 2 2 E /\
  reduced2 2 2 E 4 (plaquette (0, 0)) r /\ reduced2 2 2 E 2 [(0, 0); (1, 0)] rNN /\
  energy_1x1 q0 q1 Qcplus Qcmult Qcminus Qcopp qh qq q2 nzq 2 q0 q0 q0 q0 hz O4q O4q Zq O2q Rq O8q r r3 = Ok e /\
  energy_1x1_lowmem q0 q1 Qcplus Qcmult Qcminus Qcopp qh q2 nzq 2 q0 q0 q0 q0 hz O4q O4q Zq O2q Rq false rNN rNN r3 = Ok e' /\ e <> e'.
Proof.
  exists (basis 0), (basis_rdm q0 q1 2 0 4), (basis_rdm q0 q1 2 0 2), O4q, q1.
  destruct (valq_ok _ _ e_full_1) as (e & E1 & V1). destruct (valq_ok _ _ e_low_1) as (e' & E2 & V2).
  exists e, e'. split; [apply up_state|]. split; [now apply up_reduced|]. split; [now apply up_reduced|]. split; [exact E1|]. split; [exact E2|].
  intros Q. rewrite Q, V2 in V1. discriminate V1.
Qed.
(** the field of the J1-J2-lambda model *)
Definition e_lambda (hz : Qc) : res Qc := lambda_energy_1x1 q0 q1 Qcplus Qcmult Qcminus Qcopp qh qq q2 nzq 2 q0 q0 q0 q0 hz O4q O4q Zq Rq O8q (basis_rdm q0 q1 2 0 4) O4q.
Lemma e_lambda_1 : valq (e_lambda q1) = Some (-1 # 4)%Q.
Proof. vm_compute. reflexivity. Qed.
Definition h_lambda (hz : Qc) : Qc := rotated q1 Qcmult 2 2 flip2 sign2 (basis 0) (H_j1j2 q0 q1 Qcplus Qcmult Qcopp 2 2 q0 q0 hz O4q O4q Zq O2q).
Lemma h_lambda_1 : this (h_lambda q1) = (-4 # 1)%Q.
Proof. vm_compute. reflexivity. Qed.
Lemma lambda_refuted : exists (E : @operator Qc -> Qc) (r r3 : tensor Qc) hz e, state 2 2 E /\ reduced2 2 2 E 4 (plaquette (0, 0)) r /\
  lambda_energy_1x1 q0 q1 Qcplus Qcmult Qcminus Qcopp qh qq q2 nzq 2 q0 q0 q0 q0 hz O4q O4q Zq Rq O8q r r3 = Ok e /\
  Qcmult (ofnat q0 q1 Qcplus (length (sites 2 2))) e <> rotated q1 Qcmult 2 2 flip2 sign2 E (H_j1j2 q0 q1 Qcplus Qcmult Qcopp 2 2 q0 q0 hz O4q O4q Zq O2q).
Proof.
  exists (basis 0), (basis_rdm q0 q1 2 0 4), O4q, q1. destruct (valq_ok _ _ e_lambda_1) as (e & E1 & V1). exists e. split; [apply up_state|]. split; [now apply up_reduced|]. split; [exact E1|].
  fold (h_lambda q1). intros Q. apply (f_equal this) in Q. rewrite h_lambda_1 in Q. revert Q. destruct e as [e He]. cbn [this] in V1. subst e. vm_compute. discriminate.
Qed.
(** the energy of the AKLT model *)
Definition h3 : tensor Z := tbuild [3; 3; 3; 3]%nat (fun ix => if eqb ix [0; 2; 0; 2]%nat || eqb ix [2; 0; 2; 0]%nat then 1 else 0).
Definition R3 : tensor Z := mkT [3; 3]%nat [0; 0; 1; 0; -1; 0; 1; 0; 0].
Definition flip3 (i : nat) : nat := (2 - i)%nat.
Definition sign3 (i : nat) : Z := if Nat.even i then 1 else -1.
Lemma signed3 : signed_flip 1 Z.mul 3 flip3 sign3 /\ (forall j, (j < 3)%nat -> sign3 j * sign3 (flip3 j) = 1) /\ rotation_matrix 0 3 flip3 sign3 R3 /\ symmetric2 0 3 h3.
Proof.
  split; [split; [|exists 1]; intros [|[|[|i]]] Hi; try lia; cbn; repeat split; lia|]. split; [intros [|[|[|i]]] Hi; try lia; reflexivity|]. split; [intros [|[|[|i]]] [|[|[|j]]] Hi Hj; try lia; reflexivity|].
  intros i j a b Hi Hj Ha Hb. destruct i as [|[|[|]]], j as [|[|[|]]], a as [|[|[|]]], b as [|[|[|]]]; try lia; reflexivity.
Qed.
Lemma aklt_refuted : exists (E : @operator Z -> Z) r, expectation Z.add Z.mul 3 E /\ homogeneous 0 2 2 E /\ isotropic 0 2 2 E /\ reduced 0 Z.add Z.mul 2 2 3 E 2 [(0, 0); (1, 0)] r /\
  ofnat 0 1 Z.add (length (sites 2 2)) * aklt_bp_energy 0 Z.add Z.mul 3 r h3 R3 <> rotated 1 Z.mul 2 2 flip3 sign3 E (osum 0 Z.add (bonds_nn 2 2) (bond 0 2 2 (loc2 0 h3))).
Proof.
  exists (basis 0), (basis_rdm 0 1 3 0 2). split; [apply basis_expectation; lia|]. split; [apply basis_homogeneous|]. split; [apply basis_isotropic|].
  split; [apply (basis_reduced 0 1 Z.add Z.mul Z.sub Z.opp Zth); [lia | reflexivity]|]. vm_compute. discriminate.
Qed.
Lemma spin_facts m : signed_flip 1%R Rmult m (sflip m) ssign /\
  (forall t, get_rot_op m = Ok t -> rotation_matrix 0%R m (sflip m) ssign t) /\
  (Nat.odd m = true -> forall i, (i < m)%nat -> (ssign i * ssign (sflip m i) = 1)%R) /\
  (forall x y t, SS m x y y = Ok t -> rotation_invariant 1%R Rmult m (sflip m) ssign 2 (loc2 0%R t)) /\
  (forall t, get_op m OpSz = Ok t -> rotation_invariant 1%R Rmult m (sflip m) ssign 4 (prod1111 0%R Rmult t t t t)).
Proof.
  split; [apply spin_flip|]. split; [intros t; apply spin_rot|]. split; [apply spin_flip_odd|]. split; [intros x y t; apply spin_SS|].
  intros t Ht. apply (four_invariant 0%R 1%R Rplus Rmult Rminus Ropp RTheory m (sflip m) ssign). now apply spin_sz.
Qed.
