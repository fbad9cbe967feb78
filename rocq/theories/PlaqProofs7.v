(** Energies per site. *)
From Coq Require Import Lia Ring Permutation.
From Verif Require Import Base BaseLemmas Tensor TensorLemmas Plaq PlaqSpec PlaqProofs PlaqProofs2 PlaqProofs3 PlaqProofs4 PlaqProofs5 PlaqProofs6.
Open Scope list_scope.
Open Scope Z_scope.
Open Scope res_scope.

Section Energy.
Context {K : Type} (k0 k1 : K) (kadd kmul ksub : K -> K -> K) (kopp : K -> K).
Hypothesis Kr : ring_theory k0 k1 kadd kmul ksub kopp (@eq K).
Add Ring Kring7 : Kr.
Notation "a +k b" := (kadd a b) (at level 50, left associativity).
Notation "a -k b" := (ksub a b) (at level 50, left associativity).
Notation "a *k b" := (kmul a b) (at level 40, left associativity).
Notation sum l := (fold_right kadd k0 l).
Notation sums := (sum_map_add k0 k1 kadd kmul ksub kopp Kr).
Notation scales := (sum_map_scale k0 k1 kadd kmul ksub kopp Kr).
Notation ofnat := (ofnat k0 k1 kadd).
Notation dot := (dot k0 kadd kmul).
Variables (L M : Z) (d : nat).
Hypotheses (HL : 2 <= L) (HM : 2 <= M).
Notation sites := (sites L M).
Notation on := (on k0 L M).
Notation loc4 := (loc4 k0).
Notation loc2 := (loc2 k0).
Variable E : @operator K -> K.
Hypothesis HE : expectation kadd kmul d E.
Notation E_sum := (E_sum k0 k1 kadd kmul ksub kopp Kr d E HE).
Notation E_eq := (E_eq kadd kmul d E HE).
Notation E_add := (E_add kadd kmul d E HE).
Notation E_scale := (E_scale kadd kmul d E HE).
Notation reduced := (reduced k0 kadd kmul L M d E).
Variables (v2s : coord -> coord) (ks : list coord) (n : nat).
Hypothesis HT : tiling L M v2s ks n.
Hypothesis HI : invariant k0 L M E v2s.
Variable kdiv : K -> nat -> K.
Hypothesis Hdiv : forall x m, m <> O -> ofnat m *k kdiv x m = x.

Lemma sites_pos : (0 < length sites)%nat.
Proof. assert (H : In (0, 0) sites) by (apply In_sites; cbn; lia). destruct sites; [destruct H | cbn; lia]. Qed.
Lemma ks_pos : length ks <> O.
Proof. pose proof sites_pos. rewrite (tile_count L M v2s ks n HT) in H. destruct (length ks); lia. Qed.
Lemma per_site x : ofnat (length sites) *k kdiv x (length ks) = ofnat n *k x.
Proof. rewrite (tile_count L M v2s ks n HT), (ofnat_mul k0 k1 kadd kmul ksub kopp Kr). transitivity (ofnat n *k (ofnat (length ks) *k kdiv x (length ks))); [ring|]. now rewrite Hdiv by apply ks_pos. Qed.
Lemma moved p (f : coord -> list coord) vs O : In p sites -> (forall q, f q = map (cadd q) vs) -> E (on (f p) O) = E (on (f (v2s p)) O).
Proof.
  intros Hp Hf. rewrite <- (HI p (f (v2s p)) O Hp). f_equal. f_equal. rewrite !Hf, map_map. apply map_ext. intros v. unfold cadd, csub, cneg. destruct p as [x y], (v2s (x, y)) as [a b], v as [e g]. cbn. f_equal; lia.
Qed.
Lemma plaq_vs q : plaquette q = map (cadd q) [(0, 0); (1, 0); (0, 1); (1, 1)].
Proof. destruct q as [x y]. unfold plaquette, px, py, pxy, cadd. cbn [map fst snd]. rewrite !Z.add_0_r. reflexivity. Qed.
Lemma bx_vs q : [q; px q] = map (cadd q) [(0, 0); (1, 0)].
Proof. destruct q as [x y]. unfold px, cadd. cbn [map fst snd]. rewrite !Z.add_0_r. reflexivity. Qed.
Lemma by_vs q : [q; py q] = map (cadd q) [(0, 0); (0, 1)].
Proof. destruct q as [x y]. unfold py, cadd. cbn [map fst snd]. rewrite !Z.add_0_r. reflexivity. Qed.
Lemma s_vs q : [q] = map (cadd q) [(0, 0)].
Proof. destruct q as [x y]. unfold cadd. cbn [map fst snd]. rewrite !Z.add_0_r. reflexivity. Qed.
(** the sum over the lattice from the inequivalent sites *)
Lemma tiled_gen (f : coord -> list coord) vs (O : coord -> local) : (forall q, f q = map (cadd q) vs) ->
  E (osum k0 kadd sites (fun p => on (f p) (O (v2s p)))) = ofnat n *k sum (map (fun k => E (on (f k) (O k))) ks).
Proof.
  intros Hf. rewrite E_sum. rewrite <- (tile_sum k0 k1 kadd kmul ksub kopp Kr L M v2s ks n (fun k => E (on (f k) (O k))) HT).
  apply (sum_map_ext k0 kadd). intros p Hp. now apply (moved p f vs).
Qed.

(** ** J1-J2 *)
Section J1J2.
Variables (half quarter j1 j2 j3 lmbd hz : K) (A B Z U : tensor K) (nonzero : K -> bool).
Hypothesis Hnz : forall x, nonzero x = false -> x = k0.
Notation hp := (get_hp k0 k1 kadd kmul ksub kopp half quarter d j1 j2 hz A B Z U).
Definition hpt (c : coord) : tensor K := match hp c with Ok t => t | Err _ => mkT [] [] end.
Lemma hp_hpt c : hp c = Ok (hpt c) /\ good d (hpt c).
Proof. destruct (hp_j1j2 k0 k1 kadd kmul ksub kopp Kr L M d HL HM half quarter j1 j2 hz A B Z U c) as (t & Et & G & _). unfold hpt. rewrite Et. auto. Qed.
Lemma hp_sgn c c' : hz = k0 \/ sgn k1 kopp c = sgn k1 kopp c' -> hp c = hp c'.
Proof.
  intros H. unfold get_hp. assert (Q : kmul (kmul quarter hz) (sgn k1 kopp c) = kmul (kmul quarter hz) (sgn k1 kopp c')) by (destruct H as [-> | ->]; ring). now rewrite Q.
Qed.
Lemma energy_loop rdm chiral nnnn l e : exists r, 
  foldM (fun (e : K * K) c => t <- hp c ;;
    let ep := kadd (fst e) (dot (rdm c) t) in let ep := if nonzero lmbd then kadd ep (kmul lmbd (dot (rdm c) chiral)) else ep in
    let en := if nonzero j3 then kadd (snd e) (kmul j3 (nnnn (0, 0))) else snd e in Ok (ep, en)) l e = Ok r /\
  fst r = fst e +k sum (map (fun c => dot (rdm c) (hpt c)) l) +k lmbd *k sum (map (fun c => dot (rdm c) chiral) l) /\
  snd r = snd e +k ofnat (length l) *k (j3 *k nnnn (0, 0)).
Proof.
  revert e. induction l as [|c l IH]; intros e.
  - exists e. cbn. split; [reflexivity|]. split; ring.
  - cbn [foldM]. rewrite (proj1 (hp_hpt c)). cbn [bind]. edestruct IH as (r & Er & H1 & H2). exists r. split; [exact Er|]. rewrite H1, H2. cbn [fst snd map fold_right length PlaqSpec.ofnat].
    split.
    + destruct (nonzero lmbd) eqn:El; [ring|]. rewrite (Hnz _ El). ring.
    + destruct (nonzero j3) eqn:El; [ring|]. rewrite (Hnz _ El). ring.
Qed.
Theorem j1j2_energy (rdm : coord -> tensor K) (chiral : tensor K) (nnnn : coord -> K) :
  half +k half = k1 -> (k1 +k k1 +k k1 +k k1) *k quarter = k1 -> symmetric2 k0 d A ->
  (hz = k0 \/ Z.even L = true /\ Z.even M = true /\ forall p, In p sites -> parity k1 kopp (v2s p) = parity k1 kopp p) ->
  (forall k, In k ks -> reduced 4 (plaquette k) (rdm k)) -> good d chiral ->
  exists e, energy_per_site k0 k1 kadd kmul ksub kopp half quarter kdiv nonzero d j1 j2 j3 lmbd hz A B Z U ks rdm chiral nnnn = Ok e /\
    ofnat (length sites) *k e = E (H_j1j2 k0 k1 kadd kmul kopp L M j1 j2 hz A B Z U)
      +k lmbd *k E (osum k0 kadd sites (fun p => on (plaquette p) (loc4 chiral))) +k ofnat (length sites) *k (j3 *k nnnn (0, 0)).
Proof.
  intros Hh Hq HA Hz Hr Hc. unfold energy_per_site. destruct (energy_loop rdm chiral nnnn ks (k0, k0)) as (r & Er & H1 & H2).
  match goal with |- context [foldM ?f ?l ?s] => replace (foldM f l s) with (@Ok (K * K) r) by (symmetry; exact Er) end. cbn [bind]. eexists. split; [reflexivity|]. rewrite per_site, H1, H2. cbn [fst snd].
  rewrite (sum_map_ext k0 kadd ks (fun c => dot (rdm c) (hpt c)) (fun c => E (on (plaquette c) (loc4 (hpt c))))).
  2:{ intros c Hk. apply (dot4 k0 kadd kmul L M d E _ _ _ (Hr c Hk)). apply hp_hpt. }
  rewrite (sum_map_ext k0 kadd ks (fun c => dot (rdm c) chiral) (fun c => E (on (plaquette c) (loc4 chiral)))).
  2:{ intros c Hk. now apply (dot4 k0 kadd kmul L M d E _ _ _ (Hr c Hk)). }
  pose proof (tiled_gen plaquette _ (fun c => loc4 (hpt c)) plaq_vs) as T1. pose proof (tiled_gen plaquette _ (fun _ => loc4 chiral) plaq_vs) as T2. cbv beta in T1, T2.
  rewrite T2.
  rewrite <- (E_eq _ _ (j1j2_operator k0 k1 kadd kmul ksub kopp Kr L M d HL HM half quarter j1 j2 hz A B Z U (fun p => hpt (v2s p)) Hh Hq HA
     ltac:(destruct Hz as [Hz|(? & ? & ?)]; [now left | right; auto])
     ltac:(intros p Hp; rewrite (hp_sgn p (v2s p)); [apply hp_hpt|]; destruct Hz as [Hz|(_ & _ & Hz)]; [now left | right; symmetry; exact (Hz p Hp)]))).
  rewrite T1. rewrite (tile_count L M v2s ks n HT), (ofnat_mul k0 k1 kadd kmul ksub kopp Kr). ring.
Qed.
End J1J2.

(** ** nearest neighbours *)
Lemma fold_left_sum {I} (f : I -> K) l a : fold_left (fun e c => e +k f c) l a = a +k sum (map f l).
Proof. revert a. induction l as [|x l IH]; intros a; cbn; [ring|]. rewrite IH. ring. Qed.
Theorem nn_energy (rdm2x1 rdm1x2 : coord -> tensor K) (A B : tensor K) : twf A -> tdims A = [d; d; d; d] -> twf B -> tdims B = [d; d; d; d] ->
  (forall k, In k ks -> reduced 2 [k; px k] (rdm2x1 k)) -> (forall k, In k ks -> reduced 2 [k; py k] (rdm1x2 k)) ->
  ofnat (length sites) *k energy_2x1_1x2 k0 kadd kmul kdiv ks rdm2x1 rdm1x2 A B = E (H_xy k0 kadd L M A B).
Proof.
  intros WA DA WB DB Hx Hy. unfold energy_2x1_1x2. rewrite per_site.
  assert (Q : forall l a, fold_left (fun e c => kadd (kadd e (dot (rdm2x1 c) A)) (dot (rdm1x2 c) B)) l a = a +k sum (map (fun c => dot (rdm2x1 c) A +k dot (rdm1x2 c) B) l)).
  { induction l as [|x l IH]; intros a; cbn; [ring|]. rewrite IH. ring. }
  rewrite Q. unfold H_xy. rewrite E_add, sums.
  rewrite (sum_map_ext k0 kadd ks _ (fun c => E (on [c; px c] (loc2 A)))) by (intros c Hk; now apply (dot2 k0 kadd kmul L M d E _ _ _ (Hx c Hk))).
  rewrite (sum_map_ext k0 kadd ks (fun c => dot (rdm1x2 c) B) (fun c => E (on [c; py c] (loc2 B)))) by (intros c Hk; now apply (dot2 k0 kadd kmul L M d E _ _ _ (Hy c Hk))).
  pose proof (tiled_gen (fun q => [q; px q]) _ (fun c => loc2 A) bx_vs) as T1. pose proof (tiled_gen (fun q => [q; py q]) _ (fun _ => loc2 B) by_vs) as T2. cbv beta in T1, T2.
  assert (Ex : E (osum k0 kadd (bonds_x L M) (bond k0 L M (loc2 A))) = E (osum k0 kadd sites (fun p => on [p; px p] (loc2 A)))) by (apply E_eq; intros s s' _ _; unfold osum, bonds_x; now rewrite map_map).
  assert (Ey : E (osum k0 kadd (bonds_y L M) (bond k0 L M (loc2 B))) = E (osum k0 kadd sites (fun p => on [p; py p] (loc2 B)))) by (apply E_eq; intros s s' _ _; unfold osum, bonds_y; now rewrite map_map).
  rewrite Ex, Ey, T1, T2. ring.
Qed.
Theorem ladders_energy_ok (rdm2x1 rdm1x2 : coord -> tensor K) (alpha bz : K) (A Z ZI : tensor K) :
  twf A -> tdims A = [d; d; d; d] -> twf ZI -> tdims ZI = [d; d; d; d] ->
  (forall i j a b, (i < d)%nat -> (j < d)%nat -> (a < d)%nat -> (b < d)%nat -> loc2 ZI [i; j] [a; b] = if Nat.eqb j b then loc1 k0 Z [i] [a] else k0) ->
  (forall p, In p sites -> parity k1 kopp (v2s p) = parity k1 kopp p) -> (forall p, In p sites -> Z.even (snd (v2s p)) = Z.even (snd p)) ->
  (forall k, In k ks -> reduced 2 [k; px k] (rdm2x1 k)) -> (forall k, In k ks -> reduced 2 [k; py k] (rdm1x2 k)) ->
  ofnat (length sites) *k ladders_energy k0 k1 kadd kmul kopp kdiv ks rdm2x1 rdm1x2 alpha bz A ZI = E (H_ladders k0 k1 kadd kmul kopp L M alpha bz A Z).
Proof.
  intros WA DA WZ DZ HZI Hp1 Hp2 Hx Hy. unfold ladders_energy. rewrite per_site.
  set (cf := fun c : coord => if Z.even (snd c) then k1 else alpha).
  assert (Q : forall l a, (forall c, In c l -> In c ks) -> fold_left (fun e c => let e := kadd e (dot (rdm2x1 c) A) in
     let e := kadd e (dot (rdm1x2 c) (if Z.even (snd c) then A else tscl kmul alpha A)) in kadd e (dot (rdm1x2 c) (tscl kmul (staggered k1 kmul kopp bz c) ZI))) l a
     = a +k sum (map (fun c => E (on [c; px c] (loc2 A)) +k cf c *k E (on [c; py c] (loc2 A)) +k bz *k parity k1 kopp c *k E (on [c; py c] (loc2 ZI))) l)).
  { assert (Sc : forall c t ps r, reduced 2 ps r -> twf t -> tdims t = [d; d; d; d] -> dot r (tscl kmul c t) = c *k E (on ps (loc2 t))).
    { intros c t ps r Hr Wt Dt. rewrite (dot2 k0 kadd kmul L M d E ps r _ Hr) by (try exact Dt; now apply twf_tmap). rewrite <- E_scale. apply E_eq. intros s s' Hs Hs'. unfold oscale, PlaqSpec.on. destruct agree_off; [|ring].
      destruct (map _ ps) as [|i [|j [|]]]; cbn [PlaqSpec.loc2]; try (ring). destruct (map _ ps) as [|a [|b [|]]]; cbn [PlaqSpec.loc2]; try ring.
      unfold tscl. rewrite tget_tmap. destruct (tget t _); cbn; ring. }
    induction l as [|c l IH]; intros a Hl; [cbn; ring|]. cbn [fold_left map fold_right]. rewrite IH by (intros; apply Hl; now right).
    assert (Hc : In c ks) by (apply Hl; now left).
    rewrite (dot2 k0 kadd kmul L M d E _ _ _ (Hx c Hc)) by assumption. rewrite (Sc _ _ _ _ (Hy c Hc)) by assumption.
    assert (Q2 : dot (rdm1x2 c) (if Z.even (snd c) then A else tscl kmul alpha A) = cf c *k E (on [c; py c] (loc2 A))).
    { unfold cf. destruct (Z.even (snd c)); [rewrite (dot2 k0 kadd kmul L M d E _ _ _ (Hy c Hc)) by assumption; ring | now rewrite (Sc _ _ _ _ (Hy c Hc)) by assumption]. }
    rewrite Q2. unfold staggered, parity. ring. }
  rewrite Q by auto. clear Q. unfold H_ladders. rewrite !E_add, !sums.
  assert (Ex : E (osum k0 kadd (bonds_x L M) (bond k0 L M (loc2 A))) = E (osum k0 kadd sites (fun p => on [p; px p] (loc2 A)))) by (apply E_eq; intros s s' _ _; unfold osum, bonds_x; now rewrite map_map).
  pose proof (tiled_gen (fun q => [q; px q]) _ (fun c => loc2 A) bx_vs) as T1. cbv beta in T1. rewrite Ex, T1. clear Ex T1.
  rewrite !E_sum.
  rewrite (sum_map_ext k0 kadd sites (fun p => E (oscale kmul (if Z.even (snd p) then k1 else alpha) (bond k0 L M (loc2 A) (p, py p)))) (fun p => (fun k => cf k *k E (on [k; py k] (loc2 A))) (v2s p))).
  2:{ intros p Hp. rewrite E_scale. cbv beta. unfold cf. rewrite Hp2 by assumption. f_equal. unfold bond. cbn [fst snd]. exact (moved p (fun q => [q; py q]) _ _ Hp by_vs). }
  rewrite (sum_map_ext k0 kadd sites (fun p => E (oscale kmul (kmul bz (parity k1 kopp p)) (on [p] (loc1 k0 Z)))) (fun p => (fun k => bz *k parity k1 kopp k *k E (on [k; py k] (loc2 ZI))) (v2s p))).
  2:{ intros p Hp. rewrite E_scale. cbv beta. rewrite Hp1 by assumption. f_equal. rewrite (moved p (fun q => [q]) _ _ Hp s_vs). apply E_eq. intros s s' Hs Hs'.
      symmetry. change [v2s p] with (pick (0, 0) [0%nat] [v2s p; py (v2s p)]). apply (on_pick k0 L M d HL HM); auto.
      - pose proof (plaq_nodup L M HL HM (v2s p)) as ND. cbn [plaquette map] in *. inversion ND as [|? ? N1 N2]; subst. inversion N2 as [|? ? N3 N4]; subst. constructor; [|constructor; [intros []|constructor]].
        intros [F|[]]. apply N1. cbn. auto.
      - intros u [<- |[]]. cbn. lia.
      - intros i a Li La Fi Fa. destruct i as [|i [|j [|]]], a as [|a [|b [|]]]; try discriminate. inversion Fi as [|? ? Fi1 Fi2]; subst. inversion Fi2; subst. inversion Fa as [|? ? Fa1 Fa2]; subst. inversion Fa2; subst.
        rewrite HZI by assumption. cbn -[PlaqSpec.loc1]. destruct (Nat.eqb j b); reflexivity. }
  pose proof (tile_sum k0 k1 kadd kmul ksub kopp Kr L M v2s ks n (fun k => cf k *k E (on [k; py k] (loc2 A))) HT) as T2.
  pose proof (tile_sum k0 k1 kadd kmul ksub kopp Kr L M v2s ks n (fun k => bz *k parity k1 kopp k *k E (on [k; py k] (loc2 ZI))) HT) as T3. cbv beta in T2, T3 |- *.
  rewrite T2, T3. ring.
Qed.
End Energy.
