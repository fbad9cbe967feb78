(** C81: energies and observables of the kagome models on a periodic lattice of L x M cells. *)
From Coq Require Import Ring Field Reals.
From Verif Require Import Base BaseLemmas Tensor TensorLemmas Net Plaq PlaqSpec Su3 Su3Spec Su3Proofs5 Su3Examples Kag KagSpec RdmKag KagE KagESpec KagProofs2 KagExamples
  KagEProofs KagEProofs2 KagEProofs3 KagEProofs4 KagEProofs5 KagEExamples.
Open Scope list_scope.
Open Scope nat_scope.

(** the specification of the lattice: every spin belongs to one down and to one up triangle *)
Theorem C81_lattice : forall L M, (0 < L)%Z -> (0 < M)%Z -> forall s c, (0 <= s < 3)%Z ->
  (exists! t, In t (sites L M) /\ In (wrap (3 * L) M (spin s c)) (map (wrap (3 * L) M) (tri_dn t))) /\
  (exists! t, In t (sites L M) /\ In (wrap (3 * L) M (spin s c)) (map (wrap (3 * L) M) (tri_up t))).
Proof. intros L M HL HM s c Hs. exact (Logic.conj (one_dn L M HL HM s c Hs) (one_up L M HL HM s c Hs)). Qed.
Print Assumptions C81_lattice.

Section S.
Context {K : Type} (k0 k1 : K) (kadd kmul ksub : K -> K -> K) (kopp : K -> K) (kdiv : K -> K -> K) (kinv : K -> K) (half third im s3 : K) (cj re : K -> K) (isz : K -> bool).
Notation "a + b" := (kadd a b).
Notation "a * b" := (kmul a b).
Hypothesis Kr : ring_theory k0 k1 kadd kmul ksub kopp (@eq K).
Hypothesis Kf : field_theory k0 k1 kadd kmul ksub kopp kdiv kinv (@eq K).
Hypothesis char0 : forall n, n <> 0 -> ofnat k0 k1 kadd n <> k0.
Hypothesis Hhalf : (k1 + k1) * half = k1.
Hypothesis Hthird : (k1 + (k1 + k1)) * third = k1.
Hypothesis Him : im * im = kopp k1.
Hypothesis Hs3 : s3 * s3 = k1 + (k1 + k1).
Hypothesis isz_ok : forall x, isz x = true -> x = k0.
Hypothesis isz_0 : isz k0 = true.
Variables (d : nat) (L M : Z) (E : @operator K -> K).
Hypotheses (HL : (2 <= L)%Z) (HM : (2 <= M)%Z).
Hypothesis HE : expectation kadd kmul d E.
Notation on := (on k0 (3 * L) M).
Notation dens := (density k0 kadd kmul L M d E).
Notation el := (el k0).
Notation D6 := (repeat d 6).
Notation per_site := (ofnat k0 k1 kadd (3 * length (sites L M))).

Section Energy.
Variables (v2s : coord -> coord) (ks : list coord) (n : nat) (up : coord -> res (tensor K)) (dn : coord -> tensor K -> res (K * K)) (cast : K -> K).
Hypothesis HT : tiling L M v2s ks n.
Hypothesis HI : same_cells k0 L M E v2s.
Hypothesis Hpos : 0 < length ks.
Hypothesis Hdn : forall k op, In k ks -> tdims op = D6 -> exists m, dn k op = Ok (E (on (tri_dn k) (loc4 k0 op)), m).
Hypothesis Hup : forall k, In k ks -> exists r, up k = Ok r /\ dens 3 (up_code k) r.
Notation real O := (forall k, In k ks -> cast (E (on (tri_dn k) O)) = E (on (tri_dn k) O) /\ cast (E (on (tri_up k) O)) = E (on (tri_up k) O)).
(** the energy per site for any unit cell and any operator that is invariant under rotations of the triangle *)
Theorem C81_energy h O : tdims h = D6 -> (forall i a, state3 d i -> state3 d a -> el h (i ++ a) = O i a) -> cyclic d O -> real O ->
  exists e, energy_f k0 k1 kadd kmul kdiv up dn ks cast h = Ok e /\ per_site * e = E (triangles k0 kadd L M O).
Proof. exact (energy_of k0 k1 kadd kmul ksub kopp kdiv kinv Kr Kf char0 d L M E HE v2s ks n HT HI Hpos up dn cast Hdn Hup h O). Qed.
(** the spin Hamiltonian, for all spins and couplings *)
Variables (Id1 Sz Sp Sm : tensor K) (cplx : bool).
Hypotheses (DI : tdims Id1 = [d; d]) (Dz : tdims Sz = [d; d]) (Dp : tdims Sp = [d; d]) (Dm : tdims Sm = [d; d]) (wp : twf Sp) (wm : twf Sm).
Hypothesis HId : forall i a, i < d -> a < d -> el Id1 [i; a] = dirac k0 k1 (i =? a).
Notation sz := (fun i a => el Sz [i; a]).
Notation sp := (fun i a => el Sp [i; a]).
Notation sm := (fun i a => el Sm [i; a]).
Notation H := (H_kagome k0 k1 kadd kmul ksub kopp half im cj d sz sp sm).
Theorem C81_spin_energy j1 JD j1sq jtrip jperm h : jtrip = k0 \/ cplx = true -> real (H j1 JD j1sq jtrip jperm h) ->
  exists o e, s_half_kagome k0 k1 kadd kmul ksub kopp half im cj isz d Id1 Sz Sp Sm cplx j1 JD j1sq jtrip jperm h = Ok o /\
    energy_f k0 k1 kadd kmul kdiv up dn ks cast (h_triangle o) = Ok e /\ per_site * e = E (triangles k0 kadd L M (H j1 JD j1sq jtrip jperm h)).
Proof.
  intros Hc Hr. destruct (kagome_ok k0 k1 kadd kmul ksub kopp half im cj isz Kr Hhalf Him isz_ok d Id1 Sz Sp Sm cplx DI Dz Dp Dm wp wm HId j1 JD j1sq jtrip jperm h Hc isz_0) as (o & Ho & A & _ & _ & _ & B).
  destruct (C81_energy (h_triangle o) (H j1 JD j1sq jtrip jperm h) A (fun i a Hi Ha => proj1 (B i a Hi Ha)) (cyclic_H_kagome k0 k1 kadd kmul ksub kopp half im cj Kr d sz sp sm j1 JD j1sq jtrip jperm h) Hr) as (e & He & Q).
  exists o, e. exact (Logic.conj Ho (Logic.conj He Q)).
Qed.
(** P_up: the permutation of the up triangle *)
Theorem C81_P_up P : tdims P = D6 -> cyclic d (loc4 k0 P) -> exists l, P_up k0 k1 kadd kmul up ks P = Ok l /\ Forall2 (fun k b => fst b = k /\ fst (snd b) = E (on (tri_up k) (loc4 k0 P))) ks l.
Proof. intros DP HP. exact (up_ok k0 k1 kadd kmul ksub kopp Kr L M d E HE up ks P (fun x => x) DP HP Hup (fun _ _ => Logic.conj eq_refl eq_refl)). Qed.
End Energy.

(** correlations of the bonds: those of the up triangle carry the labels of other bonds (01 is the bond 1-2, 12 the bond 2-0, 02 the bond 1-0) *)
Theorem C81_correlations_partial Id1 Sz Sp Sm cplx (up : coord -> res (tensor K)) (dn : coord -> tensor K -> res (K * K)) c r j1 JD j1sq jtrip jperm h :
  tdims Id1 = [d; d] -> tdims Sz = [d; d] -> tdims Sp = [d; d] -> tdims Sm = [d; d] -> twf Sp -> twf Sm -> (forall i a, i < d -> a < d -> el Id1 [i; a] = dirac k0 k1 (i =? a)) ->
  (forall op, tdims op = D6 -> exists n, dn c op = Ok (E (on (tri_dn c) (loc4 k0 op)), n)) -> up c = Ok r -> dens 3 (up_code c) r -> jtrip = k0 \/ cplx = true ->
  let dot := dot k0 k1 kadd kmul ksub kopp half im (fun i a => el Sz [i; a]) (fun i a => el Sp [i; a]) (fun i a => el Sm [i; a]) in
  let cross := cross_z k0 k1 kadd kmul ksub kopp half im (fun i a => el Sp [i; a]) (fun i a => el Sm [i; a]) in
  let B x s t := plus kadd (scale kmul j1 (dot s t)) (scale kmul x (cross s t)) in
  exists o, s_half_kagome k0 k1 kadd kmul ksub kopp half im cj isz d Id1 Sz Sp Sm cplx j1 JD j1sq jtrip jperm h = Ok o /\ bond_corr k0 k1 kadd kmul up dn c o = Ok
    [E (on (tri_dn c) (B JD 0 1)); E (on (tri_dn c) (B (kopp JD) 1 2)); E (on (tri_dn c) (B JD 0 2)); E (on (tri_up c) (B JD 1 2)); E (on (tri_up c) (B (kopp JD) 2 0)); E (on (tri_up c) (B JD 1 0))].
Proof.
  intros DI Dz Dp Dm wp wm HId Hdn Hup Dr Hc. cbv zeta.
  destruct (bond_final k0 k1 kadd kmul ksub kopp half im cj isz Kr Hhalf Him isz_ok d Id1 Sz Sp Sm cplx DI Dz Dp Dm wp wm HId j1 JD j1sq jtrip jperm h Hc isz_0) as (o & t0 & t1 & t2 & Ho & Hb & D0 & D1 & D2 & Hel).
  exists o. split; [exact Ho|]. exact (bond_corr_ok k0 k1 kadd kmul ksub kopp Kr d L M E HE half im _ _ _ j1 JD o t0 t1 t2 Hb D0 D1 D2 Hel up dn c r Hdn Hup Dr).
Qed.
(** the operator= keyword is not accepted: P_dn fails for every state *)
Theorem C81_P_dn_refuted c ks : P_dn (c :: ks) = @Err (list (coord * (K * K))) TypeError.
Proof. exact eq_refl. Qed.

Section Trace.
Hypothesis HN : normalised k0 k1 L M E.
Variables (tr : coord -> tensor K -> res K) (N : K).
Hypothesis HN0 : N <> k0.
(** sz_i, sp_i, sm_i are expectation values of spin i, m2_i is the length of its magnetisation squared *)
Theorem C81_magnetisation Id1 Sz Sp Sm c : (forall op, is_op d op -> tr c op = Ok (N * E (on (tri_dn c) (stored k0 d op)))) ->
  tdims Id1 = [d; d] -> tdims Sz = [d; d] -> tdims Sp = [d; d] -> tdims Sm = [d; d] -> (forall i a, i < d -> a < d -> el Id1 [i; a] = dirac k0 k1 (i =? a)) ->
  let sz i a := el Sz [i; a] in let sp i a := el Sp [i; a] in let sm i a := el Sm [i; a] in
  let ex s A := E (on [spin (Z.of_nat s) c] (fun i a => match i, a with [x], [x'] => A x x' | _, _ => k0 end)) in
  let m s := let x := ex s (sx kadd kmul half sp sm) in let y := ex s (sy kmul ksub kopp half im sp sm) in let z := ex s sz in (z, ex s sp, ex s sm, x * x + y * y + z * z) in
  magnets k0 k1 kadd kmul kdiv d tr c Id1 Sz Sp Sm = Ok [m 0; m 1; m 2].
Proof. intros Htr DI Dz Dp Dm HI. exact (magnets_ok k0 k1 kadd kmul ksub kopp Kr d L M E HL HM HE HN kdiv kinv Kf tr c N HN0 Htr half im Id1 Sz Sp Sm Hhalf Him DI Dz Dp Dm HI). Qed.
Hypothesis Htr : forall op, is_op d op -> tr c00 op = Ok (N * E (on (tri_dn c00) (stored k0 d op))).
(** eval_generators: A, B and C stand for the spins 0, 1 and 2 *)
Theorem C81_generators J n s : re N = N -> (forall x, re (N * x) = N * re x) -> s < 3 ->
  let g := map (fun i => re (E (on [spin (Z.of_nat s) c00] (fun x a => match x, a with [x], [a] => el J [i; x; a] | _, _ => k0 end)))) (seq 0 n) in
  generators k0 k1 kadd kmul kdiv re d tr J n s = Ok (g, fold_right kadd k0 (map (fun x => x * x) g)).
Proof. intros H1 H2 Hs. exact (generators_ok k0 k1 kadd kmul ksub kopp Kr d L M E HL HM HE kdiv kinv Kf HN re tr N HN0 Htr H1 H2 J n s Hs). Qed.
End Trace.
End S.
Print Assumptions C81_energy.
Print Assumptions C81_spin_energy.
Print Assumptions C81_P_up.
Print Assumptions C81_correlations_partial.
Print Assumptions C81_P_dn_refuted.
Print Assumptions C81_magnetisation.
Print Assumptions C81_generators.

Section SU3.
Context {K : Type} (k0 k1 : K) (kadd kmul ksub : K -> K -> K) (kopp : K -> K) (kdiv : K -> K -> K) (kinv : K -> K) (half third im s3 : K) (re : K -> K).
Notation "a + b" := (kadd a b).
Notation "a * b" := (kmul a b).
Hypothesis Kr : ring_theory k0 k1 kadd kmul ksub kopp (@eq K).
Hypothesis Kf : field_theory k0 k1 kadd kmul ksub kopp kdiv kinv (@eq K).
Hypothesis char0 : forall n, n <> 0 -> ofnat k0 k1 kadd n <> k0.
Hypothesis Hhalf : (k1 + k1) * half = k1.
Hypothesis Hthird : (k1 + (k1 + k1)) * third = k1.
Hypothesis Him : im * im = kopp k1.
Hypothesis Hs3 : s3 * s3 = k1 + (k1 + k1).
Variables (L M : Z) (E : @operator K -> K).
Hypotheses (HL : (2 <= L)%Z) (HM : (2 <= M)%Z).
Hypothesis HE : expectation kadd kmul 3 E.
Notation on := (on k0 (3 * L) M).
Notation dens := (density k0 kadd kmul L M 3 E).
Notation mv := (moves k0 k1).
Notation Ht := (H_triangle k0 k1 kadd kmul ksub im).
Notation P2 := (bonds3 k0 k1 kadd).
Notation chi := (fun i a => im * ksub (mv cyc i a) (mv cyc' i a)).
Notation kag3 := (kagome_h k0 k1 kadd kmul ksub kopp half third im).
Notation num3 := (num k0 k1 kadd 3).
Notation final := (kagome_final k0 k1 kadd kmul ksub kopp half third im s3 Kr Hhalf Hthird Him Hs3).
(** energy_per_site_2x2subsystem for states with one cell *)
Theorem C81_su3_energy n dn keep m r j k h : tiling L M (fun _ => c00) [c00] n -> same_cells k0 L M E (fun _ => c00) ->
  (forall op, tdims op = [3; 3; 3; 3; 3; 3] -> dn c00 op = Ok (E (on (tri_dn c00) (loc4 k0 op)), m op)) -> keep c00 [] [sB] [sA] [sC] = Ok r -> dens 3 (up_code c00) r ->
  re (E (on (tri_dn c00) (Ht j k h))) = E (on (tri_dn c00) (Ht j k h)) -> re (E (on (tri_up c00) (Ht j k h))) = E (on (tri_up c00) (Ht j k h)) ->
  exists o e, kag3 j k h = Ok o /\ energy_per_site_2x2 k0 k1 kadd kmul kdiv re dn keep (h_tri o) = Ok e /\
    ofnat k0 k1 kadd (3 * length (sites L M)) * e = E (triangles k0 kadd L M (Ht j k h)).
Proof.
  intros HT HI Hdn Hk Dr R1 R2. destruct (final j k h) as (o & Ho & HD & Hel). apply Forall_inv in HD.
  destruct (energy_of k0 k1 kadd kmul ksub kopp kdiv kinv Kr Kf char0 3 L M E HE (fun _ => c00) [c00] n HT HI (le_n 1) (fun _ => Ok r) dn re) with (h := h_tri o) (O := Ht j k h) as (e & He & Q).
  - intros c op [<-|[]] D. exists (m op). exact (Hdn op D).
  - intros c [<-|[]]. exists r. exact (Logic.conj eq_refl Dr).
  - exact HD.
  - intros i a Hi Ha. apply (Hel i a Hi Ha).
  - exact (cyclic_H_triangle k0 k1 kadd kmul ksub kopp im kopp Kr 3 j k h).
  - intros c [<-|[]]. exact (Logic.conj R1 R2).
  - exists o, e. split; [exact Ho|]. split; [|exact Q]. rewrite <- He. apply (per_site_f k0 k1 kadd kmul ksub kopp kdiv re Kr keep dn (h_tri o) r (m (h_tri o)) _ Hk (Hdn _ HD)).
    eexists. exact (norm3_ok k0 k1 kadd kmul ksub kopp Kr 3 r (proj1 Dr)).
Qed.
(** eval_obs_2x2subsystem: chirality, energy and bonds of both triangles *)
Theorem C81_su3_observables dn up m r j k h : (forall op, tdims op = [3; 3; 3; 3; 3; 3] -> dn c00 op = Ok (E (on (tri_dn c00) (loc4 k0 op)), m op)) -> up c00 = Ok r -> dens 3 (up_code c00) r ->
  exists o, kag3 j k h = Ok o /\ su3_obs_2x2 k0 k1 kadd kmul kdiv re up dn (h_tri o) (chirality kmul ksub im o) (perm2_tri o) =
    Ok (re (E (on (tri_dn c00) chi)), re (E (on (tri_dn c00) (Ht j k h))), kdiv (re (E (on (tri_dn c00) P2))) num3,
       (re (E (on (tri_up c00) chi)), re (E (on (tri_up c00) (Ht j k h))), kdiv (re (E (on (tri_up c00) P2))) num3)).
Proof. exact (su3_obs_2x2_final k0 k1 kadd kmul ksub kopp half third im s3 re Kr Hhalf Hthird Him Hs3 kdiv L M E HE dn up m r j k h). Qed.
(** eval_obs: the same up to the sign of the chirality of the up triangle *)
Theorem C81_su3_eval_obs_partial up r tr N j k h : normalised k0 k1 L M E -> N <> k0 -> (forall op, is_op 3 op -> tr c00 op = Ok (N * E (on (tri_dn c00) (stored k0 3 op)))) -> up c00 = Ok r -> dens 3 (up_code c00) r ->
  exists o, kag3 j k h = Ok o /\ su3_obs k0 k1 kadd kmul kdiv re 3 up tr (chirality kmul ksub im o) (perm2_tri o) =
    Ok (re (E (on (tri_dn c00) chi)), kdiv (re (E (on (tri_dn c00) P2))) num3, re (kopp (E (on (tri_up c00) chi))), kdiv (re (E (on (tri_up c00) P2))) num3).
Proof. exact (su3_obs_final k0 k1 kadd kmul ksub kopp half third im s3 re Kr Hhalf Hthird Him Hs3 kdiv kinv Kf L M E HL HM HE up r tr N j k h). Qed.
End SU3.
Print Assumptions C81_su3_energy.
Print Assumptions C81_su3_observables.
Print Assumptions C81_su3_eval_obs_partial.
(** the chirality of the up triangle in eval_obs has the wrong sign *)
Theorem C81_chirality_up_refuted : exists L M E up r tr o a b x y, (2 <= L)%Z /\ (2 <= M)%Z /\ expectation cxadd cxmul 3 E /\ normalised cx0 cx1 L M E /\
  (forall op, is_op 3 op -> tr c00 op = Ok (E (on cx0 (3 * L) M (tri_dn c00) (stored cx0 3 op)))) /\ up c00 = Ok r /\ density cx0 cxadd cxmul L M 3 E 3 (up_code c00) r /\
  cx_su3 kagome_h cx0 cx0 cx1 = Ok o /\ su3_obs cx0 cx1 cxadd cxmul cxdiv cxre 3 up tr (chirality cxmul cxsub cxi o) (perm2_tri o) = Ok (a, b, x, y) /\
  x <> cxre (E (on cx0 (3 * L) M (tri_up c00) (loc4 cx0 (chirality cxmul cxsub cxi o)))).
Proof. exact chirality_up_refuted. Qed.
Print Assumptions C81_chirality_up_refuted.
(** energy_1site: a state with one cell up to translations, whose energy per site it misses *)
Theorem C81_energy_1site_refuted : exists L M E n tr keep r o e, (2 <= L)%Z /\ (2 <= M)%Z /\ expectation cxadd cxmul 3 E /\ normalised cx0 cx1 L M E /\
  tiling L M (fun _ => c00) [c00] n /\ same_cells cx0 L M E (fun _ => c00) /\
  (forall op, is_op 3 op -> tr c00 op = Ok (E (on cx0 (3 * L) M (tri_dn c00) (stored cx0 3 op)))) /\ keep c00 [sB] [sC] [] [sA] = Ok r /\ density cx0 cxadd cxmul L M 3 E 3 far r /\
  cx_su3 kagome_h cx1 cx0 cx0 = Ok o /\ energy_1site cx0 cx1 cxadd cxmul cxdiv cxre 3 tr keep [c00] (h_tri o) = Ok e /\
  cxmul (ofnat cx0 cx1 cxadd (3 * length (sites L M))) e <> E (triangles cx0 cxadd L M (loc4 cx0 (h_tri o))).
Proof. exact energy_1site_refuted. Qed.
Print Assumptions C81_energy_1site_refuted.
(** SS_up_01 is not the correlation of the spins 0 and 1 *)
Theorem C81_up_labels_refuted : exists L M E up r dn c j1 o l, (2 <= L)%Z /\ (2 <= M)%Z /\ expectation cxadd cxmul 2 E /\ normalised cx0 cx1 L M E /\
  (forall op, tdims op = [2; 2; 2; 2; 2; 2] -> exists n, dn c op = Ok (E (on cx0 (3 * L) M (tri_dn c) (loc4 cx0 op)), n)) /\ up c = Ok r /\ density cx0 cxadd cxmul L M 2 E 3 (up_code c) r /\
  model2 j1 cx0 cx0 cx0 cx0 cx0 = Ok o /\ bond_corr cx0 cx1 cxadd cxmul up dn c o = Ok l /\ nth 3 l cx0 <> E (on cx0 (3 * L) M (tri_up c) (scale cxmul j1 (dot2 0 1))).
Proof. exact up_labels_refuted. Qed.
Print Assumptions C81_up_labels_refuted.

(** complex numbers, a state with one cell up to translations and its density matrices; the energy of the stripes is two thirds per site *)
Example C81_case : field_theory cx0 cx1 cxadd cxmul cxsub cxopp cxdiv cxinv (@eq cx) /\ (forall n, n <> 0 -> ofnat cx0 cx1 cxadd n <> cx0) /\
  expectation cxadd cxmul 3 stripes /\ normalised cx0 cx1 2 2 stripes /\ tiling 2 2 (fun _ => c00) [c00] 4 /\ same_cells cx0 2 2 stripes (fun _ => c00) /\
  (forall c, density cx0 cxadd cxmul 2 2 3 stripes 3 (up_code c) (RHO 3 2%Z 2%Z stripes 3 (up_code c))) /\ stripes (triangles cx0 cxadd 2 2 (bonds3 cx0 cx1 cxadd)) = (8, 0)%R.
Proof. exact (Logic.conj cx_field (Logic.conj cx_char0 (Logic.conj stripes_exp (Logic.conj stripes_norm (Logic.conj stripes_tiling (Logic.conj stripes_same
  (Logic.conj (fun c => dens_RHO 3 2%Z 2%Z stripes stripes_exp 3 (up_code c) eq_refl) stripes_triangles))))))). Qed.
