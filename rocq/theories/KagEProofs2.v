(** The triangle operators are invariant under rotation of the spins; lattice; traces. *)
From Coq Require Import Lia Ring Permutation.
From Verif Require Import Base BaseLemmas Tensor TensorLemmas Plaq PlaqSpec PlaqProofs Su3Spec KagSpec KagESpec KagEProofs.
Open Scope list_scope.
Open Scope nat_scope.

Section R.
Context {K : Type} (k0 k1 : K) (kadd kmul ksub : K -> K -> K) (kopp : K -> K) (half im : K) (cj : K -> K).
Hypothesis Kr : ring_theory k0 k1 kadd kmul ksub kopp (@eq K).
Add Ring KringE2 : Kr.
Notation dir := (dirac k0 k1).
Lemma moves_rot p x y w x' y' w' : In p [sw01; sw12; sw02; cyc; cyc'] ->
  moves k0 k1 p [y; w; x] [y'; w'; x'] = moves k0 k1 (fun a => cyc (p (cyc' a))) [x; y; w] [x'; y'; w'].
Proof.
  intros Hp. unfold moves. f_equal. apply Bool.eq_true_iff_eq. rewrite !(eqb_true (A := list nat)).
  repeat (destruct Hp as [<-|Hp]; [cbn; split; intros H; injection H as -> -> ->; reflexivity|]). destruct Hp.
Qed.
Lemma cyclic_cyc d : cyclic d (moves k0 k1 cyc). Proof. intros x y w x' y' w' _ _ _ _ _ _. rewrite (moves_rot _ x y w) by (cbn; tauto). reflexivity. Qed.
Lemma cyclic_cyc' d : cyclic d (moves k0 k1 cyc'). Proof. intros x y w x' y' w' _ _ _ _ _ _. rewrite (moves_rot _ x y w) by (cbn; tauto). reflexivity. Qed.
Lemma cyclic_bonds3 d : cyclic d (bonds3 k0 k1 kadd).
Proof. intros x y w x' y' w' _ _ _ _ _ _. unfold bonds3. rewrite (moves_rot sw01 x y w), (moves_rot sw12 x y w), (moves_rot sw02 x y w) by (cbn; tauto). unfold moves. cbn [cyc cyc' sw01 sw12 sw02]. ring. Qed.
Lemma cyclic_H_triangle d J Kc h : cyclic d (H_triangle k0 k1 kadd kmul ksub im J Kc h).
Proof. intros x y w x' y' w' H1 H2 H3 H4 H5 H6. unfold H_triangle. now rewrite (cyclic_bonds3 d x y w), (cyclic_cyc d x y w), (cyclic_cyc' d x y w). Qed.

Variables (m : nat) (sz sp sm : nat -> nat -> K).
Notation on2 := (on2 k0 k1 kmul).
Notation on1 := (on1 k0 k1 kmul).
Notation dot := (dot k0 k1 kadd kmul ksub kopp half im sz sp sm).
Notation crs := (cross_z k0 k1 kadd kmul ksub kopp half im sp sm).
Notation times := (times k0 kadd kmul m).
(** B is A seen after the rotation *)
Definition turns (A B : @op3 K) : Prop := forall x y w x' y' w', x < m -> y < m -> w < m -> x' < m -> y' < m -> w' < m -> A [y; w; x] [y'; w'; x'] = B [x; y; w] [x'; y'; w'].
Lemma turn_plus A B A' B' : turns A A' -> turns B B' -> turns (plus kadd A B) (plus kadd A' B').
Proof. intros HA HB x y w x' y' w' H1 H2 H3 H4 H5 H6. unfold plus. now rewrite (HA x y w x' y' w'), (HB x y w x' y' w'). Qed.
Lemma turn_minus A B A' B' : turns A A' -> turns B B' -> turns (minus ksub A B) (minus ksub A' B').
Proof. intros HA HB x y w x' y' w' H1 H2 H3 H4 H5 H6. unfold minus. now rewrite (HA x y w x' y' w'), (HB x y w x' y' w'). Qed.
Lemma turn_scale c A A' : turns A A' -> turns (scale kmul c A) (scale kmul c A').
Proof. intros HA x y w x' y' w' H1 H2 H3 H4 H5 H6. unfold scale. now rewrite (HA x y w x' y' w'). Qed.
Definition nxt (s : nat) : nat := match s with 0 => 1 | 1 => 2 | _ => 0 end.
Lemma turn_on2 s t A B : In (s, t) [(0, 1); (1, 2); (2, 0)] -> turns (on2 s t A B) (on2 (nxt s) (nxt t) A B).
Proof. intros H x y w x' y' w' _ _ _ _ _ _. repeat (destruct H as [H|H]; [injection H as <- <-; unfold KagSpec.on2, place; cbn [nth Nat.eqb nxt]; ring|]). destruct H. Qed.
Lemma turn_on1 s A : s < 3 -> turns (on1 s A) (on1 (nxt s) A).
Proof. intros H x y w x' y' w' _ _ _ _ _ _. destruct s as [|[|[|?]]]; [| | |lia]; unfold KagSpec.on1, place; cbn [nth Nat.eqb nxt]; ring. Qed.
Lemma turn_dot s t : In (s, t) [(0, 1); (1, 2); (2, 0)] -> turns (dot s t) (dot (nxt s) (nxt t)).
Proof. intros H. unfold KagSpec.dot. repeat apply turn_plus; now apply turn_on2. Qed.
Lemma turn_cross s t : In (s, t) [(0, 1); (1, 2); (2, 0)] -> turns (crs s t) (crs (nxt s) (nxt t)).
Proof. intros H. unfold KagSpec.cross_z. apply turn_minus; now apply turn_on2. Qed.
Lemma in_states b : In b (states m) <-> exists x y w, b = [x; y; w] /\ x < m /\ y < m /\ w < m.
Proof.
  unfold states. rewrite in_flat_map. split.
  - intros (x & Hx & Hb). apply in_flat_map in Hb. destruct Hb as (y & Hy & Hb). apply in_map_iff in Hb. destruct Hb as (w & <- & Hw). apply in_seq in Hx, Hy, Hw. exists x, y, w. repeat split; lia.
  - intros (x & y & w & -> & Hx & Hy & Hw). exists x. split; [apply in_seq; lia|]. apply in_flat_map. exists y. split; [apply in_seq; lia|]. apply in_map_iff. exists w. split; [reflexivity|apply in_seq; lia].
Qed.
Lemma nodup_flat {A B} (f : A -> list B) l : NoDup l -> (forall a, In a l -> NoDup (f a)) -> (forall a a' b, In a l -> In a' l -> In b (f a) -> In b (f a') -> a = a') -> NoDup (flat_map f l).
Proof.
  induction 1 as [|a l Ha Hl IH]; intros Hf Hd; cbn; [constructor|]. apply NoDup_app_intro.
  - apply Hf; now left.
  - apply IH; [intros; apply Hf; now right|]. intros; eapply Hd; eauto; now right.
  - intros b Hb Hc. apply in_flat_map in Hc. destruct Hc as (a' & Ha' & Hb'). apply Ha. rewrite (Hd a a' b); auto; [now left|now right].
Qed.
Lemma nodup_states : NoDup (states m).
Proof.
  unfold states. apply nodup_flat; [apply seq_NoDup| |].
  - intros x _. apply nodup_flat; [apply seq_NoDup| |].
    + intros y _. apply nodup_map_in; [|apply seq_NoDup]. intros a b _ _ He. now injection He.
    + intros a a' b _ _ H H'. apply in_map_iff in H, H'. destruct H as (u & <- & _), H' as (v & He & _). now injection He.
  - intros a a' b _ _ H H'. apply in_flat_map in H, H'. destruct H as (u & _ & H), H' as (v & _ & H'). apply in_map_iff in H, H'. destruct H as (p & <- & _), H' as (q & He & _). now injection He.
Qed.
Lemma states_rot : Permutation (map cyc' (states m)) (states m).
Proof.
  apply NoDup_Permutation.
  - apply nodup_map_in; [|apply nodup_states]. intros a b Ha Hb He. apply in_states in Ha, Hb. destruct Ha as (x & y & w & -> & _), Hb as (x' & y' & w' & -> & _). cbn in He. injection He as -> -> ->. reflexivity.
  - apply nodup_states.
  - intros b. rewrite in_map_iff, in_states. split.
    + intros (a & <- & Ha). apply in_states in Ha. destruct Ha as (x & y & w & -> & Hx & Hy & Hw). exists y, w, x. cbn. auto.
    + intros (x & y & w & -> & Hx & Hy & Hw). exists [w; x; y]. split; [reflexivity|]. apply in_states. exists w, x, y. auto.
Qed.
Lemma turn_times A B A' B' : turns A A' -> turns B B' -> turns (times A B) (times A' B').
Proof.
  intros HA HB x y w x' y' w' H1 H2 H3 H4 H5 H6. unfold KagSpec.times.
  rewrite <- (sum_perm k0 k1 kadd kmul ksub kopp Kr _ _ (Permutation_map (fun b => kmul (A [y; w; x] b) (B b [y'; w'; x'])) states_rot)). rewrite map_map.
  apply (sum_map_ext k0 kadd). intros b Hb. apply in_states in Hb. destruct Hb as (u & v & t & -> & Hu & Hv & Ht). cbn [cyc']. now rewrite (HA x y w u v t), (HB u v t x' y' w').
Qed.
Lemma turn_ext A B B' : turns A B -> (forall i a, B i a = B' i a) -> turns A B'.
Proof. intros H He x y w x' y' w' H1 H2 H3 H4 H5 H6. rewrite <- He. now apply H. Qed.
Lemma turn_bonds f : (forall s t, In (s, t) [(0, 1); (1, 2); (2, 0)] -> turns (f s t) (f (nxt s) (nxt t))) -> turns (bonds kadd f) (bonds kadd f).
Proof.
  intros H. unfold bonds. eapply turn_ext; [repeat apply turn_plus; apply H; cbn; tauto|]. intros i a. unfold plus. cbn [nxt]. ring.
Qed.
Lemma turn_triple : turns (triple kadd kmul ksub kopp half im sz sp sm) (triple kadd kmul ksub kopp half im sz sp sm).
Proof. intros x y w x' y' w' _ _ _ _ _ _. unfold triple, plus, minus, place. cbn [nth]. ring. Qed.
Theorem cyclic_H_kagome j1 JD j1sq jtrip jperm h : cyclic m (H_kagome k0 k1 kadd kmul ksub kopp half im cj m sz sp sm j1 JD j1sq jtrip jperm h).
Proof.
  change (turns (H_kagome k0 k1 kadd kmul ksub kopp half im cj m sz sp sm j1 JD j1sq jtrip jperm h) (H_kagome k0 k1 kadd kmul ksub kopp half im cj m sz sp sm j1 JD j1sq jtrip jperm h)).
  unfold H_kagome. apply turn_plus; [|apply turn_plus; [|apply turn_plus; [apply turn_plus|]]].
  - apply turn_bonds. intros s t Hst. apply turn_plus; [apply turn_scale, turn_dot, Hst|]. apply turn_plus; [apply turn_scale, turn_cross, Hst|]. apply turn_scale, turn_times; apply turn_dot, Hst.
  - apply turn_scale, turn_triple.
  - apply turn_scale. exact (cyclic_cyc m).
  - apply turn_scale. exact (cyclic_cyc' m).
  - apply turn_scale. eapply turn_ext; [repeat apply turn_plus; apply turn_on1; lia|]. intros i a. unfold plus. cbn [nxt]. ring.
Qed.
End R.

(** ** every spin of the lattice is in one down and one up triangle *)
Open Scope Z_scope.
Section Lat.
Variables L M : Z.
Hypotheses (HL : 0 < L) (HM : 0 < M).
Lemma cells_in c : In (wrap L M c) (sites L M).
Proof. unfold wrap, sites. apply in_prod; apply In_zrange; apply Z.mod_pos_bound; assumption. Qed.
Lemma cell_bounds c : In c (sites L M) <-> 0 <= fst c < L /\ 0 <= snd c < M.
Proof. destruct c as [x y]. pose proof (in_prod_iff (zrange L) (zrange M) x y) as H. rewrite !In_zrange in H. exact H. Qed.
Definition spin_of (p : coord) : Z := fst p mod 3.
Definition cell_of (p : coord) : coord := (fst p / 3, snd p).
Lemma mod3 x s : 0 <= s < 3 -> (3 * x + s) mod (3 * L) = 3 * (x mod L) + s.
Proof. intros Hs. pose proof (Z.mod_pos_bound x L HL). symmetry. apply Z.mod_unique with (q := x / L); [lia|]. pose proof (Z.div_mod x L). lia. Qed.
Lemma spin_inj s c s' c' : 0 <= s < 3 -> 0 <= s' < 3 -> wrap (3 * L) M (spin s c) = wrap (3 * L) M (spin s' c') -> s = s' /\ wrap L M c = wrap L M c'.
Proof.
  intros Hs Hs' H. pose proof (f_equal fst H) as Hx. pose proof (f_equal snd H) as Hy. unfold wrap, spin in Hx, Hy. cbn [fst snd] in Hx, Hy.
  rewrite !mod3 in Hx by assumption. split; [lia|]. unfold wrap. apply (f_equal2 pair); [lia|exact Hy].
Qed.
Lemma wrap_spin s c : 0 <= s < 3 -> wrap (3 * L) M (spin s (wrap L M c)) = wrap (3 * L) M (spin s c).
Proof. intros Hs. unfold wrap, spin. cbn [fst snd]. rewrite !mod3, !Zmod_mod by assumption. reflexivity. Qed.
(** the position of spin s in an up triangle *)
Definition up_at (s : Z) : coord := if s =? 0 then (1, 1) else if s =? 1 then (1, 0) else (0, 1).
Lemma in_tri_up q c : In q (tri_up c) <-> exists s, 0 <= s < 3 /\ q = spin s (cadd c (up_at s)).
Proof.
  unfold tri_up. cbn [In]. split.
  - intros [<-|[<-|[<-|[]]]]; [exists 0|exists 1|exists 2]; (split; [lia|]); unfold spin, up_at, cadd, px, py, pxy; cbn [fst snd Z.eqb Pos.eqb]; f_equal; try lia.
  - intros (s & Hs & ->). assert (C : s = 0 \/ s = 1 \/ s = 2) by lia. destruct C as [-> |[-> | ->]]; [left|right; left|right; right; left]; unfold spin, up_at, cadd, px, py, pxy; cbn [fst snd Z.eqb Pos.eqb]; f_equal; lia.
Qed.
Lemma in_tri_dn q c : In q (tri_dn c) <-> exists s, 0 <= s < 3 /\ q = spin s c.
Proof.
  unfold tri_dn. cbn [In]. split.
  - intros [<-|[<-|[<-|[]]]]; [exists 0|exists 1|exists 2]; (split; [lia|reflexivity]).
  - intros (s & Hs & ->). assert (C : s = 0 \/ s = 1 \/ s = 2) by lia. destruct C as [-> |[-> | ->]]; tauto.
Qed.
Theorem one_dn s c : 0 <= s < 3 -> exists! t, In t (sites L M) /\ In (wrap (3 * L) M (spin s c)) (map (wrap (3 * L) M) (tri_dn t)).
Proof.
  intros Hs. exists (wrap L M c). split.
  - split; [apply cells_in|]. apply in_map_iff. exists (spin s (wrap L M c)). split; [|apply in_tri_dn; eauto].
    now apply wrap_spin.
  - intros t [Ht Hi]. apply in_map_iff in Hi. destruct Hi as (q & Hq & Hi). apply in_tri_dn in Hi. destruct Hi as (s' & Hs' & ->).
    apply spin_inj in Hq; [|assumption..]. destruct Hq as [_ Hq]. rewrite <- Hq. apply cell_bounds in Ht. unfold wrap. rewrite !Z.mod_small by lia. now destruct t.
Qed.
Theorem one_up s c : 0 <= s < 3 -> exists! t, In t (sites L M) /\ In (wrap (3 * L) M (spin s c)) (map (wrap (3 * L) M) (tri_up t)).
Proof.
  intros Hs. exists (wrap L M (csub c (up_at s))). split.
  - split; [apply cells_in|]. apply in_map_iff. exists (spin s (cadd (wrap L M (csub c (up_at s))) (up_at s))). split; [|apply in_tri_up; eauto].
    rewrite <- (wrap_spin s (cadd _ _)), <- (wrap_spin s c) by assumption. f_equal. f_equal. unfold wrap, cadd, csub. cbn [fst snd]. rewrite !Zplus_mod_idemp_l. f_equal; f_equal; lia.
  - intros t [Ht Hi]. apply in_map_iff in Hi. destruct Hi as (q & Hq & Hi). apply in_tri_up in Hi. destruct Hi as (s' & Hs' & ->).
    apply spin_inj in Hq; [|assumption..]. destruct Hq as [<- Hq]. apply cell_bounds in Ht. destruct t as [x y], c as [u v], (up_at s') as [p r]. unfold wrap, cadd, csub in *. cbn [fst snd] in *. injection Hq as H1 H2. f_equal.
    + rewrite Zminus_mod, <- H1, <- Zminus_mod. replace (x + p - p) with x by lia. apply Z.mod_small. lia.
    + rewrite Zminus_mod, <- H2, <- Zminus_mod. replace (y + r - r) with y by lia. apply Z.mod_small. lia.
Qed.
End Lat.
