(** The spin Hamiltonian of a triangle: matrix elements. *)
From Verif Require Import Base BaseLemmas Tensor TensorLemmas Net Plaq Su3Spec Su3Proofs Su3Proofs4 Kag KagSpec KagProofs.
From Coq Require Import Ring.
Open Scope list_scope.
Open Scope nat_scope.
Open Scope res_scope.

Section S.
Context {K : Type} (k0 k1 : K) (kadd kmul ksub : K -> K -> K) (kopp : K -> K) (half im : K) (cj : K -> K) (isz : K -> bool).
Hypothesis Kr : ring_theory k0 k1 kadd kmul ksub kopp (@eq K).
Add Ring Kring : Kr.
Notation "a + b" := (kadd a b).
Notation "a * b" := (kmul a b).
Notation "a - b" := (ksub a b).
Hypothesis Hhalf : (k1 + k1) * half = k1.
Hypothesis Him : im * im = kopp k1.
Hypothesis isz_ok : forall x, isz x = true -> x = k0.
Variables (m : nat) (Id1 Sz Sp Sm : tensor K) (cplx : bool).
Notation D2 := [m; m].
Notation D4 := [m; m; m; m].
Notation D6 := [m; m; m; m; m; m].
Notation el := (el k0).
Hypotheses (DI : tdims Id1 = D2) (Dz : tdims Sz = D2) (Dp : tdims Sp = D2) (Dm : tdims Sm = D2) (wp : twf Sp) (wm : twf Sm).
Hypothesis HI : forall i a, i < m -> a < m -> el Id1 [i; a] = dirac k0 k1 (i =? a).
Notation sz := (fun i a => el Sz [i; a]).
Notation sp := (fun i a => el Sp [i; a]).
Notation sm := (fun i a => el Sm [i; a]).
Notation dotS := (dot k0 k1 kadd kmul ksub kopp half im sz sp sm).
Notation crossS := (cross_z k0 k1 kadd kmul ksub kopp half im sp sm).
Notation tot := (total k0 kadd).
Notation dl i a := (dirac k0 k1 (i =? a)).
Notation ssf := (ssf k0 kadd kmul half Sz Sp Sm).
Notation svf := (svf k0 kadd kmul ksub kopp half im Sz Sp Sm cplx).

(** *** algebra of one bond *)
Lemma dot_alg p q p' q' : half * (p + q) * (half * (p' + q')) + kopp (half * im) * (p - q) * (kopp (half * im) * (p' - q')) = half * (p * q') + half * (q * p').
Proof. transitivity (half * half * ((p + q) * (p' + q') + (im * im) * ((p - q) * (p' - q')))); [ring|]. rewrite Him.
  transitivity (((k1 + k1) * half) * (half * (p * q') + half * (q * p'))); [ring|]. rewrite Hhalf. ring. Qed.
Lemma cross_alg p q p' q' : half * (p + q) * (kopp (half * im) * (p' - q')) - kopp (half * im) * (p - q) * (half * (p' + q')) = half * im * (p * q') - half * im * (q * p').
Proof. transitivity (((k1 + k1) * half) * (half * im * (p * q') - half * im * (q * p'))); [ring|]. rewrite Hhalf. ring. Qed.
Lemma ss_dot i j a b : ssf k1 k1 k1 [i; j; a; b]
  = sx kadd kmul half sp sm i a * sx kadd kmul half sp sm j b + (sy kmul ksub kopp half im sp sm i a * sy kmul ksub kopp half im sp sm j b + sz i a * sz j b).
Proof. unfold KagProofs.ssf, sx, sy. transitivity (sz i a * sz j b + (half * (sp i a * sm j b) + half * (sm i a * sp j b))); [ring|]. rewrite <- dot_alg. ring. Qed.
Lemma ss_jd j1 JD i j a b : ssf j1 (j1 + im * JD) (j1 - im * JD) [i; j; a; b]
  = j1 * ssf k1 k1 k1 [i; j; a; b] + JD * (sx kadd kmul half sp sm i a * sy kmul ksub kopp half im sp sm j b - sy kmul ksub kopp half im sp sm i a * sx kadd kmul half sp sm j b).
Proof. unfold sx, sy. rewrite cross_alg. unfold KagProofs.ssf. ring. Qed.
(** *** sums *)
Lemma tot_ext n f g : (forall x, x < n -> f x = g x) -> tot n f = tot n g.
Proof. exact (total_ext k0 kadd n f g). Qed.
Lemma tot_S n f : tot (S n) f = tot n f + f n.
Proof. unfold total. rewrite seq_S, map_app. cbn [map plus]. rewrite Nat.add_0_l. generalize (map f (seq 0 n)). induction l as [|x l IH]; cbn; [ring|]. rewrite IH. ring. Qed.
Lemma tot_scal n c f : c * tot n f = tot n (fun x => c * f x).
Proof. induction n as [|n IH]; [cbn; ring|]. rewrite !tot_S, <- IH. ring. Qed.
Lemma tot_scal_r n c f : tot n f * c = tot n (fun x => f x * c).
Proof. induction n as [|n IH]; [cbn; ring|]. rewrite !tot_S, <- IH. ring. Qed.
Lemma tot_add n f g : tot n f + tot n g = tot n (fun x => f x + g x).
Proof. induction n as [|n IH]; [cbn; ring|]. rewrite !tot_S, <- IH. ring. Qed.
Lemma tot_0 n : tot n (fun _ => k0) = k0.
Proof. induction n as [|n IH]; [reflexivity|]. rewrite tot_S, IH. ring. Qed.
Lemma tot_swap n n' f : tot n (fun x => tot n' (fun y => f x y)) = tot n' (fun y => tot n (fun x => f x y)).
Proof. induction n as [|n IH]; [cbn; now rewrite tot_0|]. rewrite tot_S, IH, tot_add. apply tot_ext. intros y _. now rewrite tot_S. Qed.
Lemma tot_delta n k f : k < n -> tot n (fun w => dl k w * f w) = f k.
Proof. induction n as [|n IH]; [lia|]. intros H. rewrite tot_S. destruct (Nat.eqb_spec k n) as [->|E].
  - cbn [dirac]. rewrite (tot_ext n _ (fun _ => k0)); [rewrite tot_0; ring|]. intros x Hx. destruct (Nat.eqb_spec n x); [lia|]. cbn [dirac]. ring.
  - rewrite IH by lia. cbn [dirac]. ring. Qed.
Lemma states_sum f : fold_right kadd k0 (map f (states m)) = tot m (fun x => tot m (fun y => tot m (fun w => f [x; y; w]))).
Proof. unfold states. change (fold_right kadd k0) with (nsum k0 kadd). rewrite (nsum_map_flat k0 k1 kadd kmul ksub kopp Kr). unfold total at 1, nsum at 1. f_equal. apply map_ext. intros x.
  rewrite (nsum_map_flat k0 k1 kadd kmul ksub kopp Kr). unfold total at 1, nsum at 1. f_equal. apply map_ext. intros y. rewrite map_map. reflexivity. Qed.
(** *** placed operators *)
Lemma dot01 i j k a b c : dotS 0 1 [i; j; k] [a; b; c] = ssf k1 k1 k1 [i; j; a; b] * dl k c.
Proof. rewrite ss_dot. unfold dot, plus, on2, place, unit_mat. cbn [Nat.eqb nth]. ring. Qed.
Lemma dot12 i j k a b c : dotS 1 2 [i; j; k] [a; b; c] = ssf k1 k1 k1 [j; k; b; c] * dl i a.
Proof. rewrite ss_dot. unfold dot, plus, on2, place, unit_mat. cbn [Nat.eqb nth]. ring. Qed.
Lemma dot20 i j k a b c : dotS 2 0 [i; j; k] [a; b; c] = ssf k1 k1 k1 [k; i; c; a] * dl j b.
Proof. rewrite ss_dot. unfold dot, plus, on2, place, unit_mat. cbn [Nat.eqb nth]. ring. Qed.
Definition sq (i j a b : nat) : K := tot m (fun x => tot m (fun y => ssf k1 k1 k1 [i; j; x; y] * ssf k1 k1 k1 [x; y; a; b])).
Lemma sq01 i j k a b c : k < m -> times k0 kadd kmul m (dotS 0 1) (dotS 0 1) [i; j; k] [a; b; c] = sq i j a b * dl k c.
Proof. intros Hk. unfold times. rewrite states_sum. unfold sq. rewrite tot_scal_r. apply tot_ext. intros x _. rewrite tot_scal_r. apply tot_ext. intros y _.
  rewrite (tot_ext m _ (fun w => dl k w * (ssf k1 k1 k1 [i; j; x; y] * ssf k1 k1 k1 [x; y; a; b] * dl w c))) by (intros w _; rewrite !dot01; ring).
  now rewrite tot_delta. Qed.
Lemma sq12 i j k a b c : i < m -> times k0 kadd kmul m (dotS 1 2) (dotS 1 2) [i; j; k] [a; b; c] = sq j k b c * dl i a.
Proof. intros Hi. unfold times. rewrite states_sum. unfold sq.
  rewrite (tot_ext m _ (fun x => dl i x * (tot m (fun y => tot m (fun w => ssf k1 k1 k1 [j; k; y; w] * ssf k1 k1 k1 [y; w; b; c])) * dl x a))).
  - rewrite tot_delta by exact Hi. reflexivity.
  - intros x _. rewrite tot_scal_r, tot_scal. apply tot_ext. intros y _. rewrite tot_scal_r, tot_scal. apply tot_ext. intros w _. rewrite !dot12. ring. Qed.
Lemma sq20 i j k a b c : j < m -> times k0 kadd kmul m (dotS 2 0) (dotS 2 0) [i; j; k] [a; b; c] = sq k i c a * dl j b.
Proof. intros Hj. unfold times. rewrite states_sum. unfold sq. rewrite (tot_swap m m (fun x y => ssf k1 k1 k1 [k; i; x; y] * ssf k1 k1 k1 [x; y; c; a])), tot_scal_r. apply tot_ext. intros x _.
  rewrite (tot_ext m _ (fun y => dl j y * (tot m (fun w => ssf k1 k1 k1 [k; i; w; x] * ssf k1 k1 k1 [w; x; c; a]) * dl y b))).
  - now rewrite tot_delta.
  - intros y _. rewrite tot_scal_r, tot_scal. apply tot_ext. intros w _. rewrite !dot20. ring. Qed.

(** *** the Hamiltonian *)
Notation Hs := (H_kagome k0 k1 kadd kmul ksub kopp half im cj m sz sp sm).
Notation model := (s_half_kagome k0 k1 kadd kmul ksub kopp half im cj isz m Id1 Sz Sp Sm cplx).
Definition lens (t : tensor K) : Prop := tdims t = D6.
Lemma range6 i a : state3 m i -> state3 m a -> in_range D6 (i ++ a).
Proof. intros [Hi Fi] [Ha Fa]. destruct i as [|x [|y [|w [|? ?]]]]; try discriminate Hi. destruct a as [|x' [|y' [|w' [|? ?]]]]; try discriminate Ha.
  repeat match goal with H : Forall _ (_ :: _) |- _ => apply Forall_cons_iff in H; destruct H end. unfold in_range. cbn [app]. repeat (apply Forall2_cons; [assumption|]). apply Forall2_nil. Qed.
Notation kn := (fun f ix => match ix with [i; j; k; a; b; c] => f [i; j; a; b] * el Id1 [k; c] | _ => k0 end).
Lemma with_id_b f : with_id k0 k1 kadd kmul Id1 (tbuild D4 f) = Ok (tbuild D6 (kn f)).
Proof. rewrite (with_id_ok k0 k1 kadd kmul ksub kopp Kr m Id1 DI) by reflexivity. f_equal. apply build_ext. intros ix Hix. destruct (len6 m ix Hix) as (i & j & k & a & b & c & -> & Hi & Hj & Hk & Ha & Hb & Hc).
  rewrite el_build; [reflexivity|]. unfold in_range; repeat (apply Forall2_cons; [assumption|]); apply Forall2_nil. Qed.
Lemma ss2_b : einsum k0 k1 kadd kmul [(tbuild D4 (ssf k1 k1 k1), [0; 1; 2; 3]); (tbuild D4 (ssf k1 k1 k1), [2; 3; 4; 5])] [0; 1; 4; 5]
  = Ok (tbuild D4 (fun ix => match ix with [i; j; a; b] => sq i j a b | _ => k0 end)).
Proof. rewrite (ss2_ok k0 k1 kadd kmul ksub kopp Kr m) by reflexivity. f_equal. apply build_ext. intros ix Hix. apply In_indices in Hix. pose proof (in_range_length _ _ Hix) as L. cbn in L.
  destruct ix as [|i [|j [|a [|b [|? ?]]]]]; try discriminate L. unfold in_range in Hix. repeat match goal with H : Forall2 _ (_ :: _) _ |- _ => inversion H; clear H end. subst.
  apply tot_ext. intros x Hx. apply tot_ext. intros y Hy. rewrite !el_build by (unfold in_range; repeat (apply Forall2_cons; [assumption|]); apply Forall2_nil). reflexivity. Qed.
Lemma one_b A : tdims A = D2 -> one_site k0 k1 kadd kmul Id1 A = Ok (tbuild D6 (fun ix => match ix with [i; j; k; a; b; c] => el A [i; a] * (el Id1 [j; b] * el Id1 [k; c]) | _ => k0 end)).
Proof. exact (one_site_ok k0 k1 kadd kmul ksub kopp Kr m Id1 DI A). Qed.
Lemma moves6 p i j k a b c x y w : p [a; b; c] = [x; y; w] -> moves k0 k1 p [i; j; k] [a; b; c] = dirac k0 k1 ((i =? x) && ((j =? y) && (k =? w))).
Proof. intros E. unfold moves. rewrite E. f_equal. destruct (eqb [i; j; k] [x; y; w]) eqn:E1.
  - apply (proj1 (BaseLemmas.eqb_true _ _)) in E1. injection E1 as -> -> ->. now rewrite !Nat.eqb_refl.
  - apply BaseLemmas.eqb_false in E1. destruct (Nat.eqb_spec i x), (Nat.eqb_spec j y), (Nat.eqb_spec k w); try reflexivity. subst. congruence. Qed.
Lemma kagome_ok j1 JD j1sq jtrip jperm h : jtrip = k0 \/ cplx = true -> (isz k0 = true) -> exists o, model j1 JD j1sq jtrip jperm h = Ok o /\
  lens (h_triangle o) /\ lens (SSnnId o) /\ lens (P_tri o) /\ lens (P_tri_inv o) /\
  forall i a, state3 m i -> state3 m a ->
    el (h_triangle o) (i ++ a) = Hs j1 JD j1sq jtrip jperm h i a /\
    el (SSnnId o) (i ++ a) = plus kadd (scale kmul j1 (dotS 0 1)) (scale kmul JD (crossS 0 1)) i a /\
    el (P_tri o) (i ++ a) = moves k0 k1 cyc i a /\ el (P_tri_inv o) (i ++ a) = moves k0 k1 cyc' i a.
Proof. intros Hc H0. unfold s_half_kagome.
  rewrite (SS_ok k0 k1 kadd kmul ksub kopp half Kr m Sz Sp Sm Dz Dp Dm). cbn [bind].
  rewrite (SSJ_ok k0 k1 kadd kmul ksub kopp half im isz Kr m Sz Sp Sm Dz Dp Dm isz_ok). cbn [bind].
  rewrite with_id_b. cbn [bind]. rewrite (around_ok k0 kadd m). cbn [bind]. rewrite ss2_b. cbn [bind]. rewrite with_id_b. cbn [bind]. rewrite (around_ok k0 kadd m). cbn [bind].
  rewrite (one_b Sz Dz). cbn [bind]. rewrite (around_ok k0 kadd m). cbn [bind].
  assert (Ec : negb (isz jtrip) && negb cplx = false) by (destruct Hc as [-> | ->]; [now rewrite H0|apply andb_false_r]). rewrite Ec.
  rewrite (trip_final k0 k1 kadd kmul ksub kopp half im Kr m Sz Sp Sm cplx Dp Dm wp wm). cbn [bind]. rewrite (P_ok k0 k1 m), (Pi_ok k0 k1 m). cbn [bind].
  eexists. split; [reflexivity|]. cbn [h_triangle SSnnId P_tri P_tri_inv]. unfold tadd. rewrite !scl_build, !zip_build.
  do 4 (split; [reflexivity|]). intros i a Hi Ha. rewrite !el_build by now apply range6.
  destruct Hi as [Li Fi], Ha as [La Fa]. destruct i as [|x [|y [|w [|? ?]]]]; try discriminate Li. destruct a as [|x' [|y' [|w' [|? ?]]]]; try discriminate La.
  repeat match goal with H : Forall _ (_ :: _) |- _ => apply Forall_cons_iff in H; destruct H end. cbn [app].
  split; [|split; [|split]].
  - unfold H_kagome, bonds, plus, scale. cbn [rot1 rot2]. rewrite sq01, sq12, sq20 by assumption. rewrite dot01, dot12, dot20.
    rewrite (moves6 cyc x y w x' y' w' w' x' y' eq_refl), (moves6 cyc' x y w x' y' w' y' w' x' eq_refl).
    rewrite !HI by assumption. rewrite !ss_jd. unfold cross_z, minus, on1, on2, place, unit_mat. cbn [Nat.eqb nth].
    assert (ET : jtrip * tripf k0 kadd kmul ksub kopp half im Sz Sp Sm cplx [x; y; w; x'; y'; w'] = jtrip * triple kadd kmul ksub kopp half im sz sp sm [x; y; w] [x'; y'; w']).
    { destruct Hc as [-> | ->]; [ring|]. f_equal. unfold tripf, triple, KagProofs.svf, plus, minus, place. cbn [nth]. unfold sx, sy. ring. }
    unfold rot1, rot2. rewrite ET. unfold plus. ring.
  - unfold plus, scale. rewrite dot01, HI by assumption. rewrite ss_jd. unfold cross_z, minus, on2, place, unit_mat. cbn [Nat.eqb nth]. ring.
  - now rewrite (moves6 cyc x y w x' y' w' w' x' y' eq_refl).
  - now rewrite (moves6 cyc' x y w x' y' w' y' w' x' eq_refl). Qed.
Lemma kagome_real j1 JD j1sq jtrip jperm h : isz jtrip = false -> cplx = false -> model j1 JD j1sq jtrip jperm h = Err AssertionError.
Proof. intros H1 H2. unfold s_half_kagome.
  rewrite (SS_ok k0 k1 kadd kmul ksub kopp half Kr m Sz Sp Sm Dz Dp Dm). cbn [bind].
  rewrite (SSJ_ok k0 k1 kadd kmul ksub kopp half im isz Kr m Sz Sp Sm Dz Dp Dm isz_ok). cbn [bind].
  rewrite with_id_b. cbn [bind]. rewrite (around_ok k0 kadd m). cbn [bind]. rewrite ss2_b. cbn [bind]. rewrite with_id_b. cbn [bind]. rewrite (around_ok k0 kadd m). cbn [bind].
  rewrite (one_b Sz Dz). cbn [bind]. rewrite (around_ok k0 kadd m). cbn [bind]. now rewrite H1, H2. Qed.
Lemma obs_ok A : tdims A = D2 -> exists t0 t1 t2, obs_op k0 k1 kadd kmul Id1 A = Ok (t0, t1, t2) /\ lens t0 /\ lens t1 /\ lens t2 /\
  forall i a, state3 m i -> state3 m a -> let X s := on1 k0 k1 kmul s (fun i a => el A [i; a]) i a in el t0 (i ++ a) = X 0 /\ el t1 (i ++ a) = X 1 /\ el t2 (i ++ a) = X 2.
Proof. intros HA. unfold obs_op. rewrite (one_b A HA). cbn [bind]. rewrite (rot2_ok k0 m), (rot1_ok k0 m). cbn [bind]. do 3 eexists. split; [reflexivity|].
  do 3 (split; [reflexivity|]). intros i a Hi Ha. cbv beta zeta. rewrite !el_build by now apply range6.
  destruct Hi as [Li Fi], Ha as [La Fa]. destruct i as [|x [|y [|w [|? ?]]]]; try discriminate Li. destruct a as [|x' [|y' [|w' [|? ?]]]]; try discriminate La.
  repeat match goal with H : Forall _ (_ :: _) |- _ => apply Forall_cons_iff in H; destruct H end. cbn [app rot1 rot2]. rewrite !HI by assumption.
  unfold on1, place, unit_mat. cbn [Nat.eqb nth]. repeat split; ring. Qed.
Lemma bonds_ok o f : SSnnId o = tbuild D6 f -> exists t0 t1 t2, bond_ops k0 o = Ok (t0, t1, t2) /\ lens t0 /\ lens t1 /\ lens t2 /\
  forall x y w x' y' w', state3 m [x; y; w] -> state3 m [x'; y'; w'] ->
   el t0 [x; y; w; x'; y'; w'] = f [x; y; w; x'; y'; w'] /\ el t1 [x; y; w; x'; y'; w'] = f [w; y; x; w'; y'; x'] /\ el t2 [x; y; w; x'; y'; w'] = f [x; w; y; x'; w'; y'].
Proof. intros E. unfold bond_ops. rewrite E, !perm6 by reflexivity. cbn [bind]. do 3 eexists. split; [reflexivity|]. do 3 (split; [reflexivity|]).
  intros x y w x' y' w' Hi Ha. pose proof (range6 _ _ Hi Ha) as R. cbn [app] in R. rewrite !el_build by exact R. repeat split. Qed.
Lemma bond_final j1 JD j1sq jtrip jperm h : jtrip = k0 \/ cplx = true -> isz k0 = true -> exists o t0 t1 t2, model j1 JD j1sq jtrip jperm h = Ok o /\ bond_ops k0 o = Ok (t0, t1, t2) /\
  lens t0 /\ lens t1 /\ lens t2 /\ forall i a, state3 m i -> state3 m a ->
    el t0 (i ++ a) = plus kadd (scale kmul j1 (dotS 0 1)) (scale kmul JD (crossS 0 1)) i a /\
    el t1 (i ++ a) = plus kadd (scale kmul j1 (dotS 1 2)) (scale kmul (kopp JD) (crossS 1 2)) i a /\
    el t2 (i ++ a) = plus kadd (scale kmul j1 (dotS 0 2)) (scale kmul JD (crossS 0 2)) i a.
Proof. intros Hc H0. destruct (kagome_ok j1 JD j1sq jtrip jperm h Hc H0) as (o & Ho & _ & D & _ & _ & E).
  exists o. unfold bond_ops. assert (W : SSnnId o = tbuild D6 (fun ix => el (SSnnId o) ix)).
  { rewrite <- D at 1. symmetry. apply (tbuild_tget k0). unfold s_half_kagome in Ho.
    rewrite (SS_ok k0 k1 kadd kmul ksub kopp half Kr m Sz Sp Sm Dz Dp Dm) in Ho. cbn [bind] in Ho.
    rewrite (SSJ_ok k0 k1 kadd kmul ksub kopp half im isz Kr m Sz Sp Sm Dz Dp Dm isz_ok) in Ho. cbn [bind] in Ho.
    rewrite with_id_b in Ho. cbn [bind] in Ho. rewrite (around_ok k0 kadd m) in Ho. cbn [bind] in Ho. rewrite ss2_b in Ho. cbn [bind] in Ho. rewrite with_id_b in Ho. cbn [bind] in Ho. rewrite (around_ok k0 kadd m) in Ho. cbn [bind] in Ho.
    rewrite (one_b Sz Dz) in Ho. cbn [bind] in Ho. rewrite (around_ok k0 kadd m) in Ho. cbn [bind] in Ho.
    destruct (negb (isz jtrip) && negb cplx); [discriminate Ho|]. rewrite (trip_final k0 k1 kadd kmul ksub kopp half im Kr m Sz Sp Sm cplx Dp Dm wp wm) in Ho. cbn [bind] in Ho.
    rewrite (P_ok k0 k1 m), (Pi_ok k0 k1 m) in Ho. cbn [bind] in Ho. injection Ho as <-. cbn [SSnnId]. apply twf_tbuild. }
  destruct (bonds_ok o _ W) as (t0 & t1 & t2 & Hb & L0 & L1 & L2 & F). exists t0, t1, t2. split; [exact Ho|]. split; [exact Hb|]. do 3 (split; [assumption|]).
  intros i a Hi Ha. destruct i as [|x [|y [|w [|? ?]]]]; try (destruct Hi as [Li _]; discriminate Li). destruct a as [|x' [|y' [|w' [|? ?]]]]; try (destruct Ha as [La _]; discriminate La).
  cbn [app]. destruct (F x y w x' y' w' Hi Ha) as (F0 & F1 & F2). rewrite F0, F1, F2.
  assert (perm3 : forall u v z, state3 m [x; y; w] -> In u [x; y; w] -> In v [x; y; w] -> In z [x; y; w] -> state3 m [u; v; z]).
  { intros u v z [_ G] Hu Hv Hz. rewrite Forall_forall in G. split; [reflexivity|]. repeat (apply Forall_cons; [now apply G|]). apply Forall_nil. }
  assert (perm3' : forall u v z, state3 m [x'; y'; w'] -> In u [x'; y'; w'] -> In v [x'; y'; w'] -> In z [x'; y'; w'] -> state3 m [u; v; z]).
  { intros u v z [_ G] Hu Hv Hz. rewrite Forall_forall in G. split; [reflexivity|]. repeat (apply Forall_cons; [now apply G|]). apply Forall_nil. }
  split; [|split].
  - exact (proj1 (proj2 (E [x; y; w] [x'; y'; w'] Hi Ha))).
  - etransitivity; [exact (proj1 (proj2 (E [w; y; x] [w'; y'; x'] (perm3 w y x Hi ltac:(cbn; auto) ltac:(cbn; auto) ltac:(cbn; auto)) (perm3' w' y' x' Ha ltac:(cbn; auto) ltac:(cbn; auto) ltac:(cbn; auto)))))|].
    unfold plus, scale, dot, cross_z, plus, minus, on2, place, unit_mat. cbn [Nat.eqb nth]. ring.
  - etransitivity; [exact (proj1 (proj2 (E [x; w; y] [x'; w'; y'] (perm3 x w y Hi ltac:(cbn; auto) ltac:(cbn; auto) ltac:(cbn; auto)) (perm3' x' w' y' Ha ltac:(cbn; auto) ltac:(cbn; auto) ltac:(cbn; auto)))))|].
    unfold plus, scale, dot, cross_z, plus, minus, on2, place, unit_mat. cbn [Nat.eqb nth]. ring. Qed.
End S.
