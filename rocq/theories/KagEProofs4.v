(** Observables of the SU(3) model, generators, bond correlations, and the energies of the two models. *)
From Coq Require Import Lia Ring Field Permutation.
From Verif Require Import Base BaseLemmas Tensor TensorLemmas Net Plaq PlaqSpec PlaqProofs PlaqProofs6 Su3 Su3Spec Su3Proofs5 Kag KagSpec RdmKag KagE KagESpec KagProofs KagProofs2 KagEProofs KagEProofs2 KagEProofs3.
Open Scope list_scope.
Open Scope nat_scope.
Open Scope res_scope.

Section P4.
Context {K : Type} (k0 k1 : K) (kadd kmul ksub : K -> K -> K) (kopp : K -> K).
Hypothesis Kr : ring_theory k0 k1 kadd kmul ksub kopp (@eq K).
Add Ring KringE4 : Kr.
Notation "a +k b" := (kadd a b) (at level 50, left associativity).
Notation "a *k b" := (kmul a b) (at level 40, left associativity).
Notation sum l := (fold_right kadd k0 l).
Notation el := (el k0).
Notation dir := (dirac k0 k1).
Variable d : nat.
Notation D6 := [d; d; d; d; d; d].
Notation D4 := [d; d; d; d].
Notation D2 := [d; d].
Notation loc4 := (loc4 k0).
Notation eye := (eye k0 k1).
Notation big := (d * (d * d)).

(** ** generators *)
Lemma id2_view : view (eye (d * d)) D4 = Ok (tbuild D4 (fun ix => match ix with [x; y; x'; y'] => if x * d + y =? x' * d + y' then k1 else k0 | _ => k0 end)).
Proof.
  unfold view, treshape. rewrite eye2_data. assert (Q : length (tdata (tbuild D4 (fun ix => match ix with [x; y; x'; y'] => if x * d + y =? x' * d + y' then k1 else k0 | _ => k0 end))) = prod_dims D4) by apply twf_tbuild.
  rewrite Q, Nat.eqb_refl. reflexivity.
Qed.
Lemma el_id2 x y x' y' : x < d -> y < d -> x' < d -> y' < d ->
  el (tbuild D4 (fun ix => match ix with [x; y; x'; y'] => if x * d + y =? x' * d + y' then k1 else k0 | _ => k0 end)) [x; y; x'; y'] = dir (x =? x') *k dir (y =? y').
Proof.
  intros. unfold Plaq.el. rewrite tget_tbuild by (repeat (apply Forall2_cons; [assumption|]); apply Forall2_nil). unfold dirac.
  destruct (Nat.eqb_spec (x * d + y) (x' * d + y')) as [E|E]; destruct (Nat.eqb_spec x x') as [Ex|Ex]; destruct (Nat.eqb_spec y y') as [Ey|Ey]; try ring; exfalso; subst; try lia; nia.
Qed.
Lemma gen_ok J s i : s < 3 -> exists t, gen_op k0 k1 kadd kmul d J s i = Ok t /\ twf t /\ tdims t = D6 /\
  forall x a, state3 d x -> state3 d a -> el t (x ++ a) = on1 k0 k1 kmul s (fun x a => el J [i; x; a]) x a.
Proof.
  intros Hs. unfold gen_op. rewrite id2_view. cbn [bind]. set (id2 := tbuild D4 _). assert (D : tdims id2 = D4) by reflexivity.
  assert (Hid : forall x y x' y', x < d -> y < d -> x' < d -> y' < d -> el id2 [x; y; x'; y'] = dir (x =? x') *k dir (y =? y')) by exact el_id2. clearbody id2.
  assert (R : forall x a, x < d -> a < d -> el (row k0 d J i) [x; a] = el J [i; x; a]).
  { intros x a Hx Ha. unfold row, Plaq.el at 1. rewrite tget_tbuild by (repeat (apply Forall2_cons; [assumption|]); apply Forall2_nil). reflexivity. }
  assert (Dr : tdims (row k0 d J i) = D2) by reflexivity. set (g := row k0 d J i) in *. clearbody g.
  destruct s as [|[|[|?]]]; [| | |lia]; cbn [gen_out]; unfold einsum, summed, label_dims; cbn [flat_map fst snd app]; rewrite D, Dr; cbn -[tbuild nsum nprod tel Nat.eqb indices]; rewrite ?D, ?Dr;
    cbn -[tbuild nsum nprod tel indices]; rewrite ?Nat.eqb_refl; cbn -[tbuild nsum nprod tel indices].
  all: eexists; split; [reflexivity|]; split; [apply twf_tbuild|]; split; [reflexivity|].
  all: intros x a [Lx Fx] [La Fa]; destruct x as [|x [|y [|w [|? ?]]]]; try discriminate Lx; destruct a as [|x' [|y' [|w' [|? ?]]]]; try discriminate La;
    repeat match goal with H : Forall _ (_ :: _) |- _ => apply Forall_cons_iff in H; destruct H end;
    unfold Plaq.el at 1; rewrite tget_tbuild by (cbn [app]; repeat (apply Forall2_cons; [assumption|]); apply Forall2_nil); cbn [app]; cbn -[tel];
    change (tel k0) with el; rewrite R, Hid by assumption; unfold on1, place, unit_mat, dirac; cbn [nth Nat.eqb]; repeat destruct (Nat.eqb _ _); ring.
Qed.

Variables (L M : Z) (E : @operator K -> K).
Hypotheses (HL : (2 <= L)%Z) (HM : (2 <= M)%Z).
Hypothesis HE : expectation kadd kmul d E.
Notation on := (on k0 (3 * L) M).
Notation dens := (density k0 kadd kmul L M d E).
Notation expect := (expect k0 L M E).
Lemma up_rot c (O O' : local) : (forall x y w x' y' w', x < d -> y < d -> w < d -> x' < d -> y' < d -> w' < d -> O [y; w; x] [y'; w'; x'] = O' [x; y; w] [x'; y'; w']) ->
  E (on (up_code c) O) = E (on (tri_up c) O').
Proof. exact (rot_on k0 kadd kmul L M d E HE (spin 0 (pxy c)) (spin 1 (px c)) (spin 2 (py c)) O O'). Qed.
Lemma dn_ext c O O' : (forall x y w x' y' w', x < d -> y < d -> w < d -> x' < d -> y' < d -> w' < d -> O [x; y; w] [x'; y'; w'] = O' [x; y; w] [x'; y'; w']) -> E (on (tri_dn c) O) = E (on (tri_dn c) O').
Proof. exact (on_ext3 k0 kadd kmul L M d E HE (spin 0 c) (spin 1 c) (spin 2 c) O O'). Qed.

(** ** correlations of the bonds *)
Section Bonds.
Context (half im : K) (sz sp sm : nat -> nat -> K).
Notation dot := (dot k0 k1 kadd kmul ksub kopp half im sz sp sm).
Notation cross := (cross_z k0 k1 kadd kmul ksub kopp half im sp sm).
Notation "A +o B" := (plus kadd A B) (at level 50, left associativity).
Notation "c *o A" := (scale kmul c A) (at level 40).
Variables (j1 JD : K) (o : @kag K) (t0 t1 t2 : tensor K).
Hypothesis Hops : bond_ops k0 o = Ok (t0, t1, t2).
Hypotheses (D0 : tdims t0 = D6) (D1 : tdims t1 = D6) (D2' : tdims t2 = D6).
Hypothesis Hel : forall i a, state3 d i -> state3 d a ->
    el t0 (i ++ a) = (j1 *o dot 0 1 +o JD *o cross 0 1) i a /\
    el t1 (i ++ a) = (j1 *o dot 1 2 +o kopp JD *o cross 1 2) i a /\
    el t2 (i ++ a) = (j1 *o dot 0 2 +o JD *o cross 0 2) i a.
Variables (up : coord -> res (tensor K)) (dn : coord -> tensor K -> res (K * K)) (c : coord) (r : tensor K).
Hypothesis Hdn : forall op, tdims op = D6 -> exists n, dn c op = Ok (E (on (tri_dn c) (loc4 op)), n).
Hypothesis Hup : up c = Ok r.
Hypothesis Dr : dens 3 (up_code c) r.
Ltac rot := unfold place; cbn [nth Nat.eqb].
Lemma dot_rot s x y w x' y' w' : s < 3 -> dot s (match s with 0 => 1 | 1 => 2 | _ => 0 end) [y; w; x] [y'; w'; x'] = dot (match s with 0 => 1 | 1 => 2 | _ => 0 end) (match s with 0 => 2 | 1 => 0 | _ => 1 end) [x; y; w] [x'; y'; w'].
Proof. intros Hs. destruct s as [|[|[|?]]]; [| | |lia]; unfold KagSpec.dot, plus, on2; rot; ring. Qed.
Lemma dot_rot02 x y w x' y' w' : dot 0 2 [y; w; x] [y'; w'; x'] = dot 1 0 [x; y; w] [x'; y'; w'].
Proof. unfold KagSpec.dot, plus, on2; rot; ring. Qed.
Lemma cross_rot01 x y w x' y' w' : cross 0 1 [y; w; x] [y'; w'; x'] = cross 1 2 [x; y; w] [x'; y'; w'].
Proof. unfold cross_z, minus, on2; rot; ring. Qed.
Lemma cross_rot12 x y w x' y' w' : cross 1 2 [y; w; x] [y'; w'; x'] = cross 2 0 [x; y; w] [x'; y'; w'].
Proof. unfold cross_z, minus, on2; rot; ring. Qed.
Lemma cross_rot02 x y w x' y' w' : cross 0 2 [y; w; x] [y'; w'; x'] = cross 1 0 [x; y; w] [x'; y'; w'].
Proof. unfold cross_z, minus, on2; rot; ring. Qed.
Lemma bond_corr_ok : bond_corr k0 k1 kadd kmul up dn c o = Ok
  [E (on (tri_dn c) (j1 *o dot 0 1 +o JD *o cross 0 1)); E (on (tri_dn c) (j1 *o dot 1 2 +o kopp JD *o cross 1 2)); E (on (tri_dn c) (j1 *o dot 0 2 +o JD *o cross 0 2));
   E (on (tri_up c) (j1 *o dot 1 2 +o JD *o cross 1 2)); E (on (tri_up c) (j1 *o dot 2 0 +o kopp JD *o cross 2 0)); E (on (tri_up c) (j1 *o dot 1 0 +o JD *o cross 1 0))].
Proof.
  unfold bond_corr. rewrite Hops. cbn [bind].
  destruct (Hdn t0 D0) as (n0 & ->). cbn [bind]. destruct (Hdn t1 D1) as (n1 & ->). cbn [bind]. destruct (Hdn t2 D2') as (n2 & ->). cbn [bind]. rewrite Hup. cbn [bind].
  rewrite (value3_ok k0 k1 kadd kmul ksub kopp Kr L M d E _ _ t0 Dr D0). cbn [bind]. rewrite (value3_ok k0 k1 kadd kmul ksub kopp Kr L M d E _ _ t1 Dr D1). cbn [bind].
  rewrite (value3_ok k0 k1 kadd kmul ksub kopp Kr L M d E _ _ t2 Dr D2'). cbn [bind]. f_equal.
  assert (H0 : forall i a, state3 d i -> state3 d a -> el t0 (i ++ a) = (j1 *o dot 0 1 +o JD *o cross 0 1) i a) by (intros i a Hi Ha; apply (Hel i a Hi Ha)).
  assert (H1 : forall i a, state3 d i -> state3 d a -> el t1 (i ++ a) = (j1 *o dot 1 2 +o kopp JD *o cross 1 2) i a) by (intros i a Hi Ha; apply (Hel i a Hi Ha)).
  assert (H2 : forall i a, state3 d i -> state3 d a -> el t2 (i ++ a) = (j1 *o dot 0 2 +o JD *o cross 0 2) i a) by (intros i a Hi Ha; apply (Hel i a Hi Ha)).
  apply (f_equal2 cons); [apply dn_ext; intros; now apply (loc4_ext k0 d t0)|]. apply (f_equal2 cons); [apply dn_ext; intros; now apply (loc4_ext k0 d t1)|]. apply (f_equal2 cons); [apply dn_ext; intros; now apply (loc4_ext k0 d t2)|].
  apply (f_equal2 cons); [|apply (f_equal2 cons); [|apply (f_equal2 cons); [|reflexivity]]]; apply up_rot; intros x y w x' y' w' Hx Hy Hw Hx' Hy' Hw'.
  - rewrite (loc4_ext k0 d t0 _ _ _ _ _ _ _ H0) by assumption. unfold plus, scale. now rewrite (dot_rot 0) by lia; rewrite cross_rot01.
  - rewrite (loc4_ext k0 d t1 _ _ _ _ _ _ _ H1) by assumption. unfold plus, scale. now rewrite (dot_rot 1) by lia; rewrite cross_rot12.
  - rewrite (loc4_ext k0 d t2 _ _ _ _ _ _ _ H2) by assumption. unfold plus, scale. now rewrite dot_rot02, cross_rot02.
Qed.
End Bonds.

Section F.
Context (kdiv : K -> K -> K) (kinv : K -> K).
Hypothesis Kf : field_theory k0 k1 kadd kmul ksub kopp kdiv kinv (@eq K).
Notation mdiv := (mul_div k0 k1 kadd kmul ksub kopp Kr kdiv kinv Kf).
Hypothesis HN : normalised k0 k1 L M E.
Variables (re : K -> K) (tr : coord -> tensor K -> res K) (N : K).
Hypothesis HN0 : N <> k0.
Hypothesis Htr : forall op, is_op d op -> tr c00 op = Ok (N *k E (on (tri_dn c00) (stored k0 d op))).
Notation trN := (tr_norm k0 k1 kadd kmul ksub kopp Kr d L M E HL HM HE HN tr c00 N Htr).
Notation tr6 := (tr_six k0 kmul d L M E tr c00 N Htr).
Section Gen.
Hypothesis re_N : re N = N.
Hypothesis re_mul : forall x, re (N *k x) = N *k re x.
Lemma generators_ok J n s : s < 3 -> let g := map (fun i => re (expect c00 s (fun x a => el J [i; x; a]))) (seq 0 n) in
  generators k0 k1 kadd kmul kdiv re d tr J n s = Ok (g, sum (map (fun x => x *k x) g)).
Proof.
  intros Hs g. unfold generators. rewrite trN. cbn [bind]. rewrite (mapM_ok _ (fun i => re (expect c00 s (fun x a => el J [i; x; a])))); [reflexivity|].
  intros i _. destruct (gen_ok J s i Hs) as (t & -> & Wt & Dt & Ht). cbn [bind]. rewrite (tr6 t Wt Dt). cbn [bind]. rewrite re_mul, re_N, mdiv by exact HN0. do 2 f_equal.
  unfold tri_dn. erewrite (on_ext3 k0 kadd kmul L M d E HE); [|intros; apply (loc4_ext k0 d t _ _ _ _ _ _ _ Ht); assumption].
  rewrite (on1_one k0 k1 kadd kmul ksub kopp Kr d L M E HL HM HE _ _ _ s) by (try exact Hs; apply (dn_nodup L M HL c00)). destruct s as [|[|[|?]]]; [reflexivity..|lia].
Qed.
End Gen.
Section Obs.
Variables (im : K) (chi p2 h : tensor K).
Hypotheses (Wc : twf chi) (Dc : tdims chi = D6) (Wp : twf p2) (Dp : tdims p2 = D6) (Dh : tdims h = D6).
Notation mv := (moves k0 k1).
Definition Chi : local := fun i a => im *k ksub (mv cyc i a) (mv cyc' i a).
Notation P2 := (bonds3 k0 k1 kadd).
Hypothesis Hc : forall i a, state3 d i -> state3 d a -> el chi (i ++ a) = Chi i a.
Hypothesis Hp : forall i a, state3 d i -> state3 d a -> el p2 (i ++ a) = P2 i a.
Variables (up : coord -> res (tensor K)) (r : tensor K).
Hypothesis Hup : up c00 = Ok r.
Hypothesis Dr : dens 3 (up_code c00) r.
Lemma eqb_list_sym (a b : list nat) : eqb a b = eqb b a.
Proof. destruct (eqb a b) eqn:E1, (eqb b a) eqn:E2; try reflexivity; [apply (eqb_true (A := list nat)) in E1|apply (eqb_true (A := list nat)) in E2]; subst; rewrite (proj2 (eqb_true (A := list nat) _ _) eq_refl) in *; discriminate. Qed.
Lemma chi_T x y w x' y' w' : Chi [x'; y'; w'] [x; y; w] = kopp (Chi [x; y; w] [x'; y'; w']).
Proof.
  unfold Chi, moves, cyc, cyc'. rewrite (eqb_list_sym [x'; y'; w'] [w; x; y]), (eqb_list_sym [x'; y'; w'] [y; w; x]).
  assert (A : eqb [w; x; y] [x'; y'; w'] = eqb [x; y; w] [y'; w'; x']). { apply Bool.eq_true_iff_eq. rewrite !(eqb_true (A := list nat)). split; intros Q; injection Q as -> -> ->; reflexivity. }
  assert (B : eqb [y; w; x] [x'; y'; w'] = eqb [x; y; w] [w'; x'; y']). { apply Bool.eq_true_iff_eq. rewrite !(eqb_true (A := list nat)). split; intros Q; injection Q as -> -> ->; reflexivity. }
  rewrite A, B. unfold dirac. repeat destruct (eqb _ _); ring.
Qed.
Lemma p2_T x y w x' y' w' : P2 [x'; y'; w'] [x; y; w] = P2 [x; y; w] [x'; y'; w'].
Proof.
  unfold bonds3, moves, sw01, sw12, sw02. assert (A : forall a b c a' b' c' : nat, eqb [a; b; c] [a'; b'; c'] = (a =? a') && ((b =? b') && (c =? c'))).
  { intros a b c a' b' c'. apply Bool.eq_true_iff_eq. rewrite (eqb_true (A := list nat)), !andb_true_iff, !Nat.eqb_eq. split; [intros Q; injection Q as -> -> ->; tauto|now intros (-> & -> & ->)]. }
  rewrite !A, !(Nat.eqb_sym x'), !(Nat.eqb_sym y'), !(Nat.eqb_sym w'). unfold dirac. repeat destruct (Nat.eqb _ _); cbn [andb]; ring.
Qed.
Lemma neg_on ps O : E (on ps (fun i a => kopp (O i a))) = kopp (E (on ps O)).
Proof. transitivity (kopp k1 *k E (on ps O)); [|ring]. rewrite <- (E_scale kadd kmul d E HE). apply (E_eq kadd kmul d E HE). intros s s' _ _. unfold oscale, PlaqSpec.on. destruct agree_off; ring. Qed.
Lemma cyc_chi : cyclic d Chi.
Proof. intros x y w x' y' w' H1 H2 H3 H4 H5 H6. unfold Chi. now rewrite (cyclic_cyc k0 k1 kopp d x y w), (cyclic_cyc' k0 k1 kopp d x y w). Qed.
Lemma dn_chi : E (on (tri_dn c00) (loc4 chi)) = E (on (tri_dn c00) Chi). Proof. apply dn_ext. intros. now apply (loc4_ext k0 d chi). Qed.
Lemma dn_p2 : E (on (tri_dn c00) (loc4 p2)) = E (on (tri_dn c00) P2). Proof. apply dn_ext. intros. now apply (loc4_ext k0 d p2). Qed.
(** the trace with the up triangle without transposition changes the sign of the chirality *)
Lemma su3_obs_ok : let num3 := num k0 k1 kadd 3 in su3_obs k0 k1 kadd kmul kdiv re d up tr chi p2 =
  Ok (re (E (on (tri_dn c00) Chi)), kdiv (re (E (on (tri_dn c00) P2))) num3, re (kopp (E (on (tri_up c00) Chi))), kdiv (re (E (on (tri_up c00) P2))) num3).
Proof.
  intros num3. unfold su3_obs. rewrite trN. cbn [bind]. rewrite (tr6 chi Wc Dc), (tr6 p2 Wp Dp). cbn [bind]. rewrite Hup. cbn [bind].
  rewrite (overlap3_ok k0 k1 kadd kmul ksub kopp Kr L M d E _ _ chi Dr Dc), (overlap3_ok k0 k1 kadd kmul ksub kopp Kr L M d E _ _ p2 Dr Dp). cbn [bind]. rewrite !mdiv by exact HN0.
  rewrite dn_chi, dn_p2.
  assert (A : E (on (up_code c00) (transposed (loc4 chi))) = kopp (E (on (tri_up c00) Chi))).
  { rewrite <- neg_on. apply up_rot. intros x y w x' y' w' H1 H2 H3 H4 H5 H6. unfold transposed. rewrite (loc4_ext k0 d chi Chi) by assumption. rewrite chi_T. now rewrite (cyc_chi x y w). }
  assert (B : E (on (up_code c00) (transposed (loc4 p2))) = E (on (tri_up c00) P2)).
  { apply up_rot. intros x y w x' y' w' H1 H2 H3 H4 H5 H6. unfold transposed. rewrite (loc4_ext k0 d p2 P2) by assumption. rewrite p2_T. now rewrite (cyclic_bonds3 k0 k1 kadd kmul ksub kopp kopp Kr d x y w). }
  now rewrite A, B.
Qed.
Variable dn : coord -> tensor K -> res (K * K).
Hypothesis Hdn : forall op, tdims op = D6 -> exists n, dn c00 op = Ok (E (on (tri_dn c00) (loc4 op)), n).
Hypothesis Hcyc : cyclic d (loc4 h).
Lemma su3_obs_2x2_ok : let num3 := num k0 k1 kadd 3 in su3_obs_2x2 k0 k1 kadd kmul kdiv re up dn h chi p2 =
  Ok (re (E (on (tri_dn c00) Chi)), re (E (on (tri_dn c00) (loc4 h))), kdiv (re (E (on (tri_dn c00) P2))) num3,
     (re (E (on (tri_up c00) Chi)), re (E (on (tri_up c00) (loc4 h))), kdiv (re (E (on (tri_up c00) P2))) num3)).
Proof.
  intros num3. unfold su3_obs_2x2. destruct (Hdn chi Dc) as (n0 & ->). cbn [bind]. destruct (Hdn h Dh) as (n1 & ->). cbn [bind]. destruct (Hdn p2 Dp) as (n2 & ->). cbn [bind]. rewrite Hup. cbn [bind].
  rewrite (value3_ok k0 k1 kadd kmul ksub kopp Kr L M d E _ _ chi Dr Dc). cbn [bind]. rewrite (value3_ok k0 k1 kadd kmul ksub kopp Kr L M d E _ _ h Dr Dh). cbn [bind].
  rewrite (value3_ok k0 k1 kadd kmul ksub kopp Kr L M d E _ _ p2 Dr Dp). cbn [bind]. rewrite dn_chi, dn_p2.
  assert (A : E (on (up_code c00) (loc4 chi)) = E (on (tri_up c00) Chi)).
  { apply up_rot. intros x y w x' y' w' H1 H2 H3 H4 H5 H6. rewrite (loc4_ext k0 d chi Chi) by assumption. now rewrite (cyc_chi x y w). }
  assert (B : E (on (up_code c00) (loc4 p2)) = E (on (tri_up c00) P2)).
  { apply up_rot. intros x y w x' y' w' H1 H2 H3 H4 H5 H6. rewrite (loc4_ext k0 d p2 P2) by assumption. now rewrite (cyclic_bonds3 k0 k1 kadd kmul ksub kopp kopp Kr d x y w). }
  rewrite A, B, (up_rot c00 (loc4 h) (loc4 h) Hcyc). reflexivity.
Qed.
End Obs.
Lemma id3_ok : exists t, id3 k0 k1 kadd kmul d = Ok t /\ twf t /\ tdims t = D6 /\ forall x a, state3 d x -> state3 d a -> el t (x ++ a) = dir (eqb x a).
Proof.
  assert (R : forall x a, x < d -> a < d -> el (eye d) [x; a] = dir (x =? a)).
  { intros x a Hx Ha. unfold KagE.eye, Plaq.el. rewrite tget_tbuild by (repeat (apply Forall2_cons; [assumption|]); apply Forall2_nil). reflexivity. }
  unfold id3. cbv zeta. assert (Dr : tdims (eye d) = D2) by reflexivity. set (g := eye d) in *. clearbody g.
  unfold einsum, summed, label_dims. cbn [flat_map fst snd app]. rewrite !Dr. cbn -[tbuild nsum nprod tel Nat.eqb indices]. rewrite ?Dr. cbn -[tbuild nsum nprod tel indices]. rewrite ?Nat.eqb_refl. cbn -[tbuild nsum nprod tel indices].
  eexists. split; [reflexivity|]. split; [apply twf_tbuild|]. split; [reflexivity|].
  intros x a [Lx Fx] [La Fa]. destruct x as [|x [|y [|w [|? ?]]]]; try discriminate Lx. destruct a as [|x' [|y' [|w' [|? ?]]]]; try discriminate La.
  repeat match goal with H : Forall _ (_ :: _) |- _ => apply Forall_cons_iff in H; destruct H end.
  unfold Plaq.el at 1. rewrite tget_tbuild by (cbn [app]; repeat (apply Forall2_cons; [assumption|]); apply Forall2_nil). cbn [app]. cbn -[tel eqb].
  change (tel k0) with el. rewrite !R by assumption. assert (A : eqb [x; y; w] [x'; y'; w'] = (x =? x') && ((y =? y') && (w =? w'))).
  { apply Bool.eq_true_iff_eq. rewrite (eqb_true (A := list nat)), !andb_true_iff, !Nat.eqb_eq. split; [intros Q; injection Q as -> -> ->; tauto|now intros (-> & -> & ->)]. }
  rewrite A. unfold dirac. repeat destruct (Nat.eqb _ _); cbn [andb]; ring.
Qed.
Section One.
Variables (keep : coord -> list abc -> list abc -> list abc -> list abc -> res (tensor K)) (ks : list coord) (h r : tensor K).
Hypotheses (Wh : twf h) (Dh : tdims h = D6).
Hypothesis Hkeep : keep c00 [sB] [sC] [] [sA] = Ok r.
Notation far := [spin 1 c00; spin 0 (px c00); spin 2 (pxy c00)].
Hypothesis Dr : dens 3 far r.
(** the three spins are not those of a triangle *)
Lemma energy_1site_ok : energy_1site k0 k1 kadd kmul kdiv re d tr keep ks h =
  Ok (re (kdiv (k0 +k E (on (tri_dn c00) (loc4 h)) +k E (on far (fun i a => match i, a with [x; y; w], [x'; y'; w'] => loc4 h [w'; x'; y'] [w; x; y] | _, _ => k0 end))) (num k0 k1 kadd (length ks) *k num k0 k1 kadd 3))).
Proof.
  unfold energy_1site. destruct id3_ok as (t & -> & Wt & Dt & Ht). cbn [bind]. rewrite (tr6 t Wt Dt). cbn [bind]. rewrite (tr6 h Wh Dh). cbn [bind]. rewrite Hkeep. cbn [bind].
  rewrite (ring3_ok k0 k1 kadd kmul ksub kopp Kr L M d E far r h Dr Dh). cbn [bind].
  assert (U : E (on (tri_dn c00) (loc4 t)) = k1).
  { apply (on_unit k0 k1 kadd kmul d L M E HL HM HE HN). intros i a Hi Ha Fi Fa. apply Ht; split; assumption. }
  rewrite U. replace (N *k k1) with N by ring. rewrite mdiv by exact HN0. reflexivity.
Qed.
End One.
End F.
End P4.
