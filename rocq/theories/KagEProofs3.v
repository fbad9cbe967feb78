(** Unit operators, traces over the down triangle, magnetisations and observables of the kagome models. *)
From Coq Require Import Lia Ring Field Permutation.
From Verif Require Import Base BaseLemmas Tensor TensorLemmas Net Plaq PlaqSpec PlaqProofs PlaqProofs6 Su3 Su3Spec Kag KagSpec RdmKag KagE KagESpec KagProofs KagProofs2 KagEProofs KagEProofs2.
Open Scope list_scope.
Open Scope nat_scope.
Open Scope res_scope.

(** ** row-major data *)
Lemma fuse {A} (F : nat -> list A) n m : flat_map F (seq 0 (n * m)) = flat_map (fun x => flat_map (fun y => F (x * m + y)) (seq 0 m)) (seq 0 n).
Proof.
  induction n as [|n IH]; [reflexivity|]. rewrite seq_S, flat_map_app. cbn [flat_map]. rewrite app_nil_r. cbn [Nat.mul]. rewrite Nat.add_comm, seq_app, flat_map_app, IH. f_equal.
  cbn [Nat.add]. generalize (n * m) as k. intros k. clear. change (k + 0) with (k + 0). assert (Q : forall s, flat_map F (seq (k + s) m) = flat_map (fun y => F (k + y)) (seq s m)); [|now rewrite <- (Nat.add_0_r k) at 1; apply Q].
  induction m as [|m IH]; intros s; cbn; [reflexivity|]. f_equal. rewrite <- IH. f_equal. f_equal. lia.
Qed.
Lemma map_indices {A} (g : list nat -> A) n ds : map g (indices (n :: ds)) = flat_map (fun i => map (fun ix => g (i :: ix)) (indices ds)) (seq 0 n).
Proof. cbn [indices]. rewrite flat_map_concat_map, concat_map, map_map, <- flat_map_concat_map. apply flat_map_ext. intros i. now rewrite map_map. Qed.
Lemma map_indices0 {A} (g : list nat -> A) : map g (indices []) = [g []]. Proof. reflexivity. Qed.
Definition flat3 (d x y w : nat) : nat := x * (d * d) + (y * d + w).
Lemma flat3_inj d x y w x' y' w' : y < d -> w < d -> y' < d -> w' < d -> flat3 d x y w = flat3 d x' y' w' -> x = x' /\ y = y' /\ w = w'.
Proof.
  unfold flat3. intros H1 H2 H3 H4 E. assert (Q1 : y * d + w < d * d) by nia. assert (Q2 : y' * d + w' < d * d) by nia.
  assert (x = x') by nia. subst x'. assert (Q : y * d + w = y' * d + w') by lia. assert (y = y') by nia. subst y'. lia.
Qed.
Lemma flat_map_in {A B} (f g : A -> list B) l : (forall a, In a l -> f a = g a) -> flat_map f l = flat_map g l.
Proof. intros H. induction l as [|a l IH]; [reflexivity|]. cbn. rewrite H by now left. rewrite IH by (intros; apply H; now right). reflexivity. Qed.
Ltac fm := apply flat_map_in; intros ? ?Hin; apply in_seq in Hin.

Section P3.
Context {K : Type} (k0 k1 : K) (kadd kmul ksub : K -> K -> K) (kopp : K -> K).
Hypothesis Kr : ring_theory k0 k1 kadd kmul ksub kopp (@eq K).
Add Ring KringE3 : Kr.
Notation "a +k b" := (kadd a b) (at level 50, left associativity).
Notation "a *k b" := (kmul a b) (at level 40, left associativity).
Notation sum l := (fold_right kadd k0 l).
Notation el := (el k0).
Notation dir := (dirac k0 k1).
Variable d : nat.
Notation D6 := [d; d; d; d; d; d].
Notation D4 := [d; d; d; d].
Notation D2 := [d; d].
Notation loc4 := (loc4 k0).
Notation stored := (stored k0 d).
Notation eye := (eye k0 k1).

Lemma eye3_data : tdata (eye (d * (d * d))) = tdata (tbuild D6 (fun ix => match ix with [x; y; w; x'; y'; w'] => if flat3 d x y w =? flat3 d x' y' w' then k1 else k0 | _ => k0 end)).
Proof.
  unfold KagE.eye, tbuild. cbn [tdata]. rewrite !map_indices, fuse. fm. rewrite map_indices, fuse. fm. rewrite map_indices. fm. rewrite !map_indices, fuse. fm. rewrite map_indices, fuse. fm. rewrite map_indices. fm.
  rewrite !map_indices0. unfold flat3. reflexivity.
Qed.
Lemma eye2_data : tdata (eye (d * d)) = tdata (tbuild D4 (fun ix => match ix with [x; y; x'; y'] => if x * d + y =? x' * d + y' then k1 else k0 | _ => k0 end)).
Proof.
  unfold KagE.eye, tbuild. cbn [tdata]. rewrite !map_indices, fuse. fm. rewrite map_indices. fm. rewrite !map_indices, fuse. fm. rewrite map_indices. fm.
  rewrite !map_indices0. reflexivity.
Qed.
Lemma eye3_stored x y w x' y' w' : x < d -> y < d -> w < d -> x' < d -> y' < d -> w' < d -> stored (eye (d * (d * d))) [x; y; w] [x'; y'; w'] = dir (eqb [x; y; w] [x'; y'; w']).
Proof.
  intros. unfold KagESpec.stored, PlaqSpec.loc4. rewrite eye3_data.
  change (mkT (repeat d 6) (tdata (tbuild D6 ?f))) with (tbuild D6 f). rewrite tget_tbuild by (cbn [app]; repeat (apply Forall2_cons; [assumption|]); apply Forall2_nil). cbn [app].
  unfold dirac. destruct (Nat.eqb_spec (flat3 d x y w) (flat3 d x' y' w')) as [E|E].
  - apply flat3_inj in E; [|assumption..]. destruct E as (-> & -> & ->). now rewrite (proj2 (eqb_true (A := list nat) _ _) eq_refl).
  - destruct (eqb [x; y; w] [x'; y'; w']) eqn:Q; [|reflexivity]. apply (eqb_true (A := list nat)) in Q. injection Q as -> -> ->. contradiction E. reflexivity.
Qed.
Lemma stored_six op : tdims op = D6 -> stored op = loc4 op.
Proof. intros H. unfold KagESpec.stored. destruct op as [ds l]. cbn in H |- *. now subst ds. Qed.

(** ** well-formed results *)
Lemma einsum_wf ops out t : einsum k0 k1 kadd kmul ops out = Ok t -> twf t.
Proof. unfold einsum. destruct (_ && _); [|discriminate]. intros H. injection H as <-. apply twf_tbuild. Qed.
Lemma permute_wf t p t' : permute k0 t p = Ok t' -> twf t'.
Proof. unfold permute, tpermute. destruct (is_permb _ _); [|discriminate]. intros H. injection H as <-. apply twf_tbuild. Qed.
Lemma zip_wf f (a b : tensor K) : twf a -> twf b -> tdims a = tdims b -> twf (tzip f a b).
Proof. unfold twf, tzip. cbn [tdims tdata]. intros Ha Hb E. rewrite map_length, combine_length, Ha, Hb, E. apply Nat.min_id. Qed.
Lemma obs_wf Id1 A t0 t1 t2 : obs_op k0 k1 kadd kmul Id1 A = Ok (t0, t1, t2) -> twf t0 /\ twf t1 /\ twf t2.
Proof.
  unfold obs_op, one_site. destruct (einsum _ _ _ _ _ _) as [a|] eqn:E; [|discriminate]. cbn [bind]. destruct (permute k0 a [2; 0; 1; 5; 3; 4]) as [b|] eqn:E1; [|discriminate]. cbn [bind].
  destruct (permute k0 a [1; 2; 0; 4; 5; 3]) as [c|] eqn:E2; [|discriminate]. cbn [bind]. intros H. injection H as <- <- <-. split; [exact (einsum_wf _ _ _ E)|]. split; eapply permute_wf; eauto.
Qed.

(** ** expectation values on the lattice *)
Variables (L M : Z) (E : @operator K -> K).
Hypotheses (HL : (2 <= L)%Z) (HM : (2 <= M)%Z).
Hypothesis HE : expectation kadd kmul d E.
Hypothesis HN : normalised k0 k1 L M E.
Notation on := (on k0 (3 * L) M).
Notation dens := (density k0 kadd kmul L M d E).
Lemma HL3 : (2 <= 3 * L)%Z. Proof. lia. Qed.
Lemma on_unit ps O : (forall i a, length i = length ps -> length a = length ps -> Forall (fun x => x < d) i -> Forall (fun x => x < d) a -> O i a = dir (eqb i a)) -> E (on ps O) = k1.
Proof.
  intros H. rewrite <- HN. apply (E_eq kadd kmul d E HE). intros s s' Hs Hs'. unfold PlaqSpec.on, one.
  assert (Q : O (map (fun p => s (wrap (3 * L) M p)) ps) (map (fun p => s' (wrap (3 * L) M p)) ps) = dir (eqb (map (fun p => s (wrap (3 * L) M p)) ps) (map (fun p => s' (wrap (3 * L) M p)) ps))).
  { apply H; rewrite ?map_length; try reflexivity; apply Forall_forall; intros x Hx; apply in_map_iff in Hx; destruct Hx as (? & <- & _); auto. }
  rewrite Q. clear Q. unfold dirac.
  destruct (forallb (fun p => Nat.eqb (s p) (s' p)) (sites (3 * L) M)) eqn:F.
  - rewrite forallb_forall in F. replace (agree_off (3 * L) M (map (wrap (3 * L) M) ps) s s') with true.
    + replace (eqb _ _) with true; [reflexivity|]. symmetry. apply (eqb_true (A := list nat)). apply map_ext_in. intros p _. apply Nat.eqb_eq, F, wrap_sites; lia.
    + symmetry. unfold agree_off. apply forallb_forall. intros p Hp. rewrite (F p Hp). apply orb_true_r.
  - destruct (agree_off (3 * L) M (map (wrap (3 * L) M) ps) s s') eqn:A; [|reflexivity]. destruct (eqb _ _) eqn:B; [|reflexivity]. exfalso.
    apply (eqb_true (A := list nat)) in B. apply not_true_iff_false in F. apply F. apply forallb_forall. intros p Hp. apply Nat.eqb_eq.
    unfold agree_off in A. rewrite forallb_forall in A. specialize (A p Hp). apply orb_true_iff in A. destruct A as [A|A]; [|now apply Nat.eqb_eq].
    apply existsb_exists in A. destruct A as (q & Hq & He). apply (eqb_true (A := coord)) in He. subst q. apply in_map_iff in Hq. destruct Hq as (q & <- & Hq).
    exact (ext_in_map B q Hq).
Qed.
Lemma on_lin ps c O O' : E (on ps (fun i a => O i a +k c *k O' i a)) = E (on ps O) +k c *k E (on ps O').
Proof.
  rewrite <- (E_scale kadd kmul d E HE), <- (E_add kadd kmul d E HE). apply (E_eq kadd kmul d E HE). intros s s' _ _. unfold oadd, oscale, PlaqSpec.on. destruct agree_off; [reflexivity|ring].
Qed.
Lemma on_scl ps c O : E (on ps (fun i a => c *k O i a)) = c *k E (on ps O).
Proof.
  rewrite <- (E_scale kadd kmul d E HE). apply (E_eq kadd kmul d E HE). intros s s' _ _. unfold oscale, PlaqSpec.on. destruct agree_off; [reflexivity|ring].
Qed.
(** operators that act on some of the spins of a triangle *)
Lemma dn_nodup c : NoDup (map (wrap (3 * L) M) (tri_dn c)).
Proof.
  assert (Q : forall s s', (0 <= s < 3)%Z -> (0 <= s' < 3)%Z -> s <> s' -> wrap (3 * L) M (spin s c) <> wrap (3 * L) M (spin s' c)).
  { intros s s' Hs Hs' N H. apply N. apply spin_inj in H; [exact (proj1 H)|lia..]. }
  unfold tri_dn. cbn [map]. repeat (apply NoDup_cons; [cbn [In]; intros Hc; repeat (destruct Hc as [Hc|Hc]; [revert Hc; apply Q; lia|]); exact Hc|]). apply NoDup_nil.
Qed.
Lemma on_some p q r us (O O' : local) : NoDup (map (wrap (3 * L) M) [p; q; r]) -> (forall u, In u us -> u < 3) ->
  (forall x y w x' y' w', x < d -> y < d -> w < d -> x' < d -> y' < d -> w' < d ->
    O' [x; y; w] [x'; y'; w'] = if others_agree us [x; y; w] [x'; y'; w'] then O (pick 0 us [x; y; w]) (pick 0 us [x'; y'; w']) else k0) ->
  E (on [p; q; r] O') = E (on (pick (0, 0)%Z us [p; q; r]) O).
Proof.
  intros Hn Hu H. apply (E_eq kadd kmul d E HE). intros s s' Hs Hs'. apply (on_pick k0 (3 * L) M d HL3 HM); try assumption.
  intros i a Hi Ha Fi Fa. cbn in Hi, Ha. destruct i as [|x [|y [|w [|? ?]]]]; try discriminate Hi. destruct a as [|x' [|y' [|w' [|? ?]]]]; try discriminate Ha.
  repeat match goal with H : Forall _ (_ :: _) |- _ => apply Forall_cons_iff in H; destruct H end. now apply H.
Qed.
(** a matrix on one spin *)
Definition mat_loc (A : nat -> nat -> K) : local := fun i a => match i, a with [x], [x'] => A x x' | _, _ => k0 end.
Lemma on1_one p q r s A : NoDup (map (wrap (3 * L) M) [p; q; r]) -> s < 3 -> E (on [p; q; r] (on1 k0 k1 kmul s A)) = E (on [nth s [p; q; r] (0, 0)%Z] (mat_loc A)).
Proof.
  intros Hn Hs. apply (on_some p q r [s] (mat_loc A)); [exact Hn| |].
  - intros u [<-|[]]. exact Hs.
  - intros x y w x' y' w' _ _ _ _ _ _. destruct s as [|[|[|?]]]; [| | |lia]; unfold on1, place, others_agree, pick, mat_loc, unit_mat, dirac; cbn [nth seq length forallb existsb Nat.eqb map orb andb];
    repeat destruct (Nat.eqb _ _); cbn [andb orb]; ring.
Qed.
Lemma loc4_ext (t : tensor K) (O : local) x y w x' y' w' : (forall i a, state3 d i -> state3 d a -> el t (i ++ a) = O i a) ->
  x < d -> y < d -> w < d -> x' < d -> y' < d -> w' < d -> loc4 t [x; y; w] [x'; y'; w'] = O [x; y; w] [x'; y'; w'].
Proof. intros H. intros. apply H; (split; [reflexivity|repeat (apply Forall_cons; [assumption|]); apply Forall_nil]). Qed.

Section F.
Context (kdiv : K -> K -> K) (kinv : K -> K).
Hypothesis Kf : field_theory k0 k1 kadd kmul ksub kopp kdiv kinv (@eq K).
Notation mdiv := (mul_div k0 k1 kadd kmul ksub kopp Kr kdiv kinv Kf).
Variables (tr : coord -> tensor K -> res K) (c : coord) (N : K).
Hypothesis HN0 : N <> k0.
Hypothesis Htr : forall op, is_op d op -> tr c op = Ok (N *k E (on (tri_dn c) (stored op))).
Notation big := (d * (d * d)).
Lemma prod6 : prod_dims D6 = big * big. Proof. unfold prod_dims. cbn [fold_right]. nia. Qed.
Lemma tr_norm : tr c (eye big) = Ok N.
Proof.
  rewrite Htr by (split; [apply twf_tbuild|right; reflexivity]). rewrite on_unit; [f_equal; ring|].
  intros i a Hi Ha Fi Fa. cbn in Hi, Ha. destruct i as [|x [|y [|w [|? ?]]]]; try discriminate Hi. destruct a as [|x' [|y' [|w' [|? ?]]]]; try discriminate Ha.
  repeat match goal with H : Forall _ (_ :: _) |- _ => apply Forall_cons_iff in H; destruct H end. now apply eye3_stored.
Qed.
Lemma tr_six op : twf op -> tdims op = D6 -> tr c op = Ok (N *k E (on (tri_dn c) (loc4 op))).
Proof. intros Hw Hd. rewrite Htr by (split; [exact Hw|left; exact Hd]). now rewrite stored_six. Qed.
Lemma onsite_ok op : twf op -> tdims op = D6 -> onsite kdiv d tr c N op = Ok (E (on (tri_dn c) (loc4 op))).
Proof.
  intros Hw Hd. unfold onsite, view, treshape. unfold twf in Hw. rewrite Hd, prod6 in Hw.
  assert (P2 : prod_dims [big; big] = big * big) by (unfold prod_dims; cbn [fold_right]; nia). rewrite P2, Hw, Nat.eqb_refl. cbn [bind].
  rewrite Htr by (split; [unfold twf; cbn [tdata tdims]; now rewrite P2|right; reflexivity]). cbn [bind]. rewrite mdiv by exact HN0. unfold KagESpec.stored. cbn [tdata].
  destruct op as [ds l]. cbn in Hd |- *. now subst ds.
Qed.

Section Mag.
Variables (half im : K) (Id1 Sz Sp Sm : tensor K).
Hypothesis Hhalf : (k1 +k k1) *k half = k1.
Hypothesis Him : im *k im = kopp k1.
Hypotheses (DI : tdims Id1 = D2) (Dz : tdims Sz = D2) (Dp : tdims Sp = D2) (Dm : tdims Sm = D2).
Hypothesis HI : forall i a, i < d -> a < d -> el Id1 [i; a] = dir (i =? a).
Definition expect (s : nat) (A : nat -> nat -> K) : K := E (on [spin (Z.of_nat s) c] (mat_loc A)).
Notation sz := (fun i a => el Sz [i; a]).
Notation sp := (fun i a => el Sp [i; a]).
Notation sm := (fun i a => el Sm [i; a]).
Lemma expect_sx s : expect s (sx kadd kmul half sp sm) = half *k (expect s sp +k expect s sm).
Proof.
  unfold expect. rewrite <- (E_add kadd kmul d E HE), <- (E_scale kadd kmul d E HE). apply (E_eq kadd kmul d E HE). intros t t' _ _. unfold oadd, oscale, PlaqSpec.on. destruct agree_off; [|ring]. cbn [map mat_loc]. reflexivity.
Qed.
Lemma expect_sy s : expect s (sy kmul ksub kopp half im sp sm) = kopp (half *k im) *k (expect s sp +k kopp k1 *k expect s sm).
Proof.
  unfold expect. rewrite <- (E_scale kadd kmul d E HE (kopp k1)), <- (E_add kadd kmul d E HE), <- (E_scale kadd kmul d E HE). apply (E_eq kadd kmul d E HE). intros t t' _ _. unfold oadd, oscale, PlaqSpec.on. destruct agree_off; [|ring]. cbn [map mat_loc]. unfold sy. ring.
Qed.
Lemma m2_sum s : expect s sp *k expect s sm =
  expect s (sx kadd kmul half sp sm) *k expect s (sx kadd kmul half sp sm) +k expect s (sy kmul ksub kopp half im sp sm) *k expect s (sy kmul ksub kopp half im sp sm).
Proof.
  rewrite expect_sx, expect_sy. set (p := expect s sp). set (q := expect s sm).
  transitivity (((k1 +k k1) *k half) *k ((k1 +k k1) *k half) *k (p *k q)); [rewrite Hhalf; ring|].
  transitivity ((half *k half) *k ((p +k q) *k (p +k q)) +k (half *k half) *k (im *k im) *k ((p +k kopp k1 *k q) *k (p +k kopp k1 *k q))); [rewrite Him; ring|ring].
Qed.
Definition mag_of (s : nat) : K * K * K * K := (expect s sz, expect s sp, expect s sm,
  expect s (sx kadd kmul half sp sm) *k expect s (sx kadd kmul half sp sm) +k expect s (sy kmul ksub kopp half im sp sm) *k expect s (sy kmul ksub kopp half im sp sm) +k expect s sz *k expect s sz).
Lemma one_expect s A t : s < 3 -> (forall i a, state3 d i -> state3 d a -> el t (i ++ a) = on1 k0 k1 kmul s (fun i a => el A [i; a]) i a) ->
  E (on (tri_dn c) (loc4 t)) = expect s (fun i a => el A [i; a]).
Proof.
  intros Hs H. unfold tri_dn. erewrite (on_ext3 k0 kadd kmul L M d E HE); [|intros; apply (loc4_ext t _ _ _ _ _ _ _ H); assumption].
  rewrite (on1_one _ _ _ s) by (try exact Hs; apply (dn_nodup c)). destruct s as [|[|[|?]]]; [reflexivity..|lia].
Qed.
Lemma magnet_ok s z p m : s < 3 -> twf z /\ tdims z = D6 -> twf p /\ tdims p = D6 -> twf m /\ tdims m = D6 ->
  (forall i a, state3 d i -> state3 d a -> el z (i ++ a) = on1 k0 k1 kmul s sz i a) ->
  (forall i a, state3 d i -> state3 d a -> el p (i ++ a) = on1 k0 k1 kmul s sp i a) ->
  (forall i a, state3 d i -> state3 d a -> el m (i ++ a) = on1 k0 k1 kmul s sm i a) ->
  magnet kadd kmul kdiv d tr c N z p m = Ok (mag_of s).
Proof.
  intros Hs (Wz & Ez) (Wp & Ep) (Wm & Em) Hz Hp Hm. unfold magnet. rewrite !onsite_ok by assumption. cbn [bind]. rewrite (one_expect s Sz z Hs Hz), (one_expect s Sp p Hs Hp), (one_expect s Sm m Hs Hm).
  unfold mag_of. rewrite m2_sum. do 2 f_equal. ring.
Qed.
Lemma magnets_ok : magnets k0 k1 kadd kmul kdiv d tr c Id1 Sz Sp Sm = Ok [mag_of 0; mag_of 1; mag_of 2].
Proof.
  destruct (obs_ok k0 k1 kadd kmul ksub kopp Kr d Id1 DI HI Sz Dz) as (z0 & z1 & z2 & Ez & A0 & A1 & A2 & Hz).
  destruct (obs_ok k0 k1 kadd kmul ksub kopp Kr d Id1 DI HI Sp Dp) as (p0 & p1 & p2 & Ep & B0 & B1 & B2 & Hp).
  destruct (obs_ok k0 k1 kadd kmul ksub kopp Kr d Id1 DI HI Sm Dm) as (m0 & m1 & m2 & Em & C0 & C1 & C2 & Hm).
  destruct (obs_wf _ _ _ _ _ Ez) as (? & ? & ?). destruct (obs_wf _ _ _ _ _ Ep) as (? & ? & ?). destruct (obs_wf _ _ _ _ _ Em) as (? & ? & ?).
  unfold magnets. rewrite tr_norm. cbn [bind]. rewrite Ez, Ep, Em. cbn [bind mapM].
  rewrite (magnet_ok 0 z0 p0 m0), (magnet_ok 1 z1 p1 m1), (magnet_ok 2 z2 p2 m2); [reflexivity|..]; try (split; assumption); try lia; intros i a Hi Ha;
    solve [apply (Hz i a Hi Ha)|apply (Hp i a Hi Ha)|apply (Hm i a Hi Ha)].
Qed.
End Mag.
End F.
End P3.
