(** C79: the spin Hamiltonian of a kagome triangle. *)
From Verif Require Import Base BaseLemmas Tensor TensorLemmas Net Plaq Su3Spec Su3Examples Kag KagSpec KagProofs2 KagExamples.
From Coq Require Import Ring.
Open Scope list_scope.
Open Scope nat_scope.

Section S.
Context {K : Type} (k0 k1 : K) (kadd kmul ksub : K -> K -> K) (kopp : K -> K) (half im : K) (cj : K -> K) (isz : K -> bool).
Notation "a + b" := (kadd a b).
Notation "a * b" := (kmul a b).
Hypothesis Kr : ring_theory k0 k1 kadd kmul ksub kopp (@eq K).
Hypothesis Hhalf : (k1 + k1) * half = k1.
Hypothesis Him : im * im = kopp k1.
Hypothesis isz_ok : forall x, isz x = true -> x = k0.
Variables (m : nat) (Id1 Sz Sp Sm : tensor K) (cplx : bool).
Notation el := (el k0).
Hypotheses (DI : tdims Id1 = [m; m]) (Dz : tdims Sz = [m; m]) (Dp : tdims Sp = [m; m]) (Dm : tdims Sm = [m; m]) (wp : twf Sp) (wm : twf Sm).
Hypothesis HI : forall i a, i < m -> a < m -> el Id1 [i; a] = dirac k0 k1 (i =? a).
Notation D6 := [m; m; m; m; m; m].
Notation sz := (fun i a => el Sz [i; a]).
Notation sp := (fun i a => el Sp [i; a]).
Notation sm := (fun i a => el Sm [i; a]).
Notation dotS := (dot k0 k1 kadd kmul ksub kopp half im sz sp sm).
Notation crossS := (cross_z k0 k1 kadd kmul ksub kopp half im sp sm).
Notation model := (s_half_kagome k0 k1 kadd kmul ksub kopp half im cj isz m Id1 Sz Sp Sm cplx).
Notation "A +o B" := (plus kadd A B) (at level 50, left associativity).
Notation "c *o A" := (scale kmul c A) (at level 40).

(** h_triangle (with + jtrip), SSnnId, P_triangle and P_triangle_inv for every spin and all couplings *)
Theorem C79_hamiltonian_partial j1 JD j1sq jtrip jperm h : jtrip = k0 \/ cplx = true -> isz k0 = true ->
  exists o, model j1 JD j1sq jtrip jperm h = Ok o /\ Forall (fun t => tdims t = D6) [h_triangle o; SSnnId o; P_tri o; P_tri_inv o] /\
  forall i a, state3 m i -> state3 m a ->
    el (h_triangle o) (i ++ a) = H_kagome k0 k1 kadd kmul ksub kopp half im cj m sz sp sm j1 JD j1sq jtrip jperm h i a /\
    el (SSnnId o) (i ++ a) = (j1 *o dotS 0 1 +o JD *o crossS 0 1) i a /\
    el (P_tri o) (i ++ a) = moves k0 k1 cyc i a /\ el (P_tri_inv o) (i ++ a) = moves k0 k1 cyc' i a.
Proof. intros Hc H0. destruct (kagome_ok k0 k1 kadd kmul ksub kopp half im cj isz Kr Hhalf Him isz_ok m Id1 Sz Sp Sm cplx DI Dz Dp Dm wp wm HI j1 JD j1sq jtrip jperm h Hc H0) as (o & Ho & A & B & C & D & E).
  exists o. split; [exact Ho|]. split; [repeat (apply Forall_cons; [assumption|]); apply Forall_nil|exact E]. Qed.
(** a chiral term with a real dtype is refused *)
Theorem C79_real_dtype j1 JD j1sq jtrip jperm h : isz jtrip = false -> cplx = false -> model j1 JD j1sq jtrip jperm h = Err AssertionError.
Proof. exact (kagome_real k0 k1 kadd kmul ksub kopp half im cj isz Kr isz_ok m Id1 Sz Sp Sm cplx DI Dz Dp Dm j1 JD j1sq jtrip jperm h). Qed.
(** obs_ops: the operator acts on the site in its label *)
Theorem C79_observables A : tdims A = [m; m] -> exists t0 t1 t2, obs_op k0 k1 kadd kmul Id1 A = Ok (t0, t1, t2) /\ tdims t0 = D6 /\ tdims t1 = D6 /\ tdims t2 = D6 /\
  forall i a, state3 m i -> state3 m a -> let X s := on1 k0 k1 kmul s (fun i a => el A [i; a]) i a in el t0 (i ++ a) = X 0 /\ el t1 (i ++ a) = X 1 /\ el t2 (i ++ a) = X 2.
Proof. exact (obs_ok k0 k1 kadd kmul ksub kopp Kr m Id1 DI HI A). Qed.
(** the operators behind SS_dn_01, SS_dn_12, SS_dn_02: multiplied by j1 and mixed with the Dzyaloshinskii-Moriya term *)
Theorem C79_correlations_partial j1 JD j1sq jtrip jperm h : jtrip = k0 \/ cplx = true -> isz k0 = true ->
  exists o t0 t1 t2, model j1 JD j1sq jtrip jperm h = Ok o /\ bond_ops k0 o = Ok (t0, t1, t2) /\ tdims t0 = D6 /\ tdims t1 = D6 /\ tdims t2 = D6 /\
  forall i a, state3 m i -> state3 m a ->
    el t0 (i ++ a) = (j1 *o dotS 0 1 +o JD *o crossS 0 1) i a /\
    el t1 (i ++ a) = (j1 *o dotS 1 2 +o kopp JD *o crossS 1 2) i a /\
    el t2 (i ++ a) = (j1 *o dotS 0 2 +o JD *o crossS 0 2) i a.
Proof. exact (bond_final k0 k1 kadd kmul ksub kopp half im cj isz Kr Hhalf Him isz_ok m Id1 Sz Sp Sm cplx DI Dz Dp Dm wp wm HI j1 JD j1sq jtrip jperm h). Qed.
End S.
Print Assumptions C79_hamiltonian_partial.
Print Assumptions C79_real_dtype.
Print Assumptions C79_observables.
Print Assumptions C79_correlations_partial.
(** documented: - J_trip (S_0 x S_1).S_2 *)
Theorem C79_chiral_sign_refuted : exists o, model2 cx0 cx0 cx0 cx1 cx0 cx0 = Ok o /\
  exists i a, state3 2 i /\ state3 2 a /\ el cx0 (h_triangle o) (i ++ a) <> cxmul (cxopp cx1) (trip2 i a).
Proof. exact triple_refuted. Qed.
Print Assumptions C79_chiral_sign_refuted.
Theorem C79_correlations_refuted : exists j1 o t0 t1 t2, model2 j1 cx0 cx0 cx0 cx0 cx0 = Ok o /\ bond_ops cx0 o = Ok (t0, t1, t2) /\
  exists i a, state3 2 i /\ state3 2 a /\ el cx0 t0 (i ++ a) <> dot cx0 cx1 cxadd cxmul cxsub cxopp cxhalf cxi sz2 sp2 sm2 0 1 i a.
Proof. exact corr_refuted. Qed.
Print Assumptions C79_correlations_refuted.
