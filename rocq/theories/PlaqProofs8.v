(** Energies from the four plaquettes of a 2x2 unit cell, and the ring exchange. *)
From Coq Require Import Lia Ring Permutation.
From Verif Require Import Base BaseLemmas Tensor TensorLemmas Plaq PlaqSpec PlaqProofs PlaqProofs2 PlaqProofs3 PlaqProofs4 PlaqProofs5 PlaqProofs6 PlaqProofs7.
Open Scope list_scope.
Open Scope Z_scope.
Open Scope res_scope.

(** ** the 2x2 tiling *)
Lemma filter_prod {A B} (f : A -> bool) (g : B -> bool) l l' : length (filter (fun p => f (fst p) && g (snd p)) (list_prod l l')) = (length (filter f l) * length (filter g l'))%nat.
Proof.
  induction l as [|a l IH]; [reflexivity|]. cbn [list_prod]. rewrite filter_app, app_length, IH. cbn [filter].
  assert (Q : forall l', length (filter (fun p => f (fst p) && g (snd p)) (map (fun y => (a, y)) l')) = if f a then length (filter g l') else 0%nat).
  { induction l'0 as [|b l'0 IHl]; [now destruct (f a)|]. cbn [map filter fst snd]. destruct (f a); cbn [andb]; [|exact IHl]. destruct (g b); cbn [length]; now rewrite IHl. }
  rewrite Q. destruct (f a); cbn [length]; lia.
Qed.
Lemma zrange_succ n : 0 <= n -> zrange (n + 1) = zrange n ++ [n].
Proof. intros H. unfold zrange. replace (Z.to_nat (n + 1)) with (Z.to_nat n + 1)%nat by lia. rewrite seq_app, map_app. cbn. now rewrite Z2Nat.id. Qed.
Lemma count_mod2 a r : 0 <= r < 2 -> length (filter (fun x => Z.eqb (x mod 2) r) (zrange (2 * Z.of_nat a))) = a.
Proof.
  intros Hr. induction a as [|a IH]; [reflexivity|]. replace (2 * Z.of_nat (S a)) with (2 * Z.of_nat a + 1 + 1) by lia.
  rewrite !zrange_succ by lia. rewrite !filter_app, !app_length, IH. cbn [filter length].
  rewrite (Z.mul_comm 2), Z.mod_mul by lia. rewrite Z.add_comm, Z.mod_add by lia. change (1 mod 2) with 1.
  destruct (Z.eqb_spec 0 r), (Z.eqb_spec 1 r); cbn [length]; lia.
Qed.
Lemma tiling2 L M : 0 < L -> 0 < M -> Z.even L = true -> Z.even M = true -> tiling L M v2s2 ks4 (Z.to_nat (L / 2) * Z.to_nat (M / 2)).
Proof.
  intros HL HM EL EM. apply Z.even_spec in EL, EM. destruct EL as [a ->], EM as [b ->]. 
  rewrite (Z.mul_comm 2 a), (Z.mul_comm 2 b), !Z.div_mul by lia. unfold tiling. split; [|split].
  - repeat constructor; cbn; intuition congruence.
  - intros [x y] _. unfold v2s2, ks4. cbn [fst snd]. pose proof (Z.mod_pos_bound x 2). pose proof (Z.mod_pos_bound y 2).
    assert (Hx : x mod 2 = 0 \/ x mod 2 = 1) by lia. assert (Hy : y mod 2 = 0 \/ y mod 2 = 1) by lia. destruct Hx as [-> | ->], Hy as [-> | ->]; cbn; auto.
  - intros [r1 r2] Hk. assert (Hr : 0 <= r1 < 2 /\ 0 <= r2 < 2) by (cbn in Hk; repeat (destruct Hk as [Hk|Hk]; [injection Hk; lia|]); destruct Hk).
    rewrite (filter_ext _ (fun p => Z.eqb (fst p mod 2) r1 && Z.eqb (snd p mod 2) r2)).
    + unfold sites, coord. rewrite (filter_prod (fun x => Z.eqb (x mod 2) r1) (fun y => Z.eqb (y mod 2) r2)). rewrite (Z.mul_comm a 2), (Z.mul_comm b 2).
      replace a with (Z.of_nat (Z.to_nat a)) at 1 by lia. replace b with (Z.of_nat (Z.to_nat b)) at 1 by lia. rewrite !count_mod2 by tauto. reflexivity.
    + intros [x y]. unfold v2s2. cbn [fst snd]. apply Bool.eq_true_iff_eq. rewrite andb_true_iff, !Z.eqb_eq, (eqb_true (A:=coord)). split; [intros Q; now injection Q | intros [-> ->]; reflexivity].
Qed.

Section Four.
Context {K : Type} (k0 k1 : K) (kadd kmul ksub : K -> K -> K) (kopp : K -> K).
Hypothesis Kr : ring_theory k0 k1 kadd kmul ksub kopp (@eq K).
Add Ring Kring8 : Kr.
Notation "a +k b" := (kadd a b) (at level 50, left associativity).
Notation "a -k b" := (ksub a b) (at level 50, left associativity).
Notation "a *k b" := (kmul a b) (at level 40, left associativity).
Notation sum l := (fold_right kadd k0 l).
Notation sums := (sum_map_add k0 k1 kadd kmul ksub kopp Kr).
Notation scales := (sum_map_scale k0 k1 kadd kmul ksub kopp Kr).
Notation ofnat := (ofnat k0 k1 kadd).
Notation dot := (dot k0 kadd kmul).
Variables (L M : Z) (d : nat).
Hypotheses (HL : 2 <= L) (HM : 2 <= M).
Notation sites := (sites L M).
Notation on := (on k0 L M).
Notation loc4 := (loc4 k0).
Notation loc2 := (loc2 k0).
Variable E : @operator K -> K.
Hypothesis HE : expectation kadd kmul d E.
Notation E_sum := (E_sum k0 k1 kadd kmul ksub kopp Kr d E HE).
Notation E_eq := (E_eq kadd kmul d E HE).
Notation E_add := (E_add kadd kmul d E HE).
Notation E_scale := (E_scale kadd kmul d E HE).
Notation reduced := (reduced k0 kadd kmul L M d E).
Hypotheses (EL : Z.even L = true) (EM : Z.even M = true).
Hypothesis HI : invariant k0 L M E v2s2.
Variable kdiv : K -> nat -> K.
Hypothesis Hdiv : forall x m, m <> O -> ofnat m *k kdiv x m = x.
Notation n4 := (Z.to_nat (L / 2) * Z.to_nat (M / 2))%nat.
Lemma HT : tiling L M v2s2 ks4 n4.
Proof. apply tiling2; lia || assumption. Qed.
Lemma mod_even x m : Z.even m = true -> 0 < m -> (x mod m) mod 2 = x mod 2.
Proof. intros He Hm. apply Z.even_spec in He. destruct He as [c ->]. rewrite (Z.mod_eq x (2 * c)) by lia. rewrite <- Z.mul_assoc, Z.mul_comm, Z.mod_eq by lia. rewrite (Z.mod_eq x) by lia.
  replace (x - c * (x / (2 * c)) * 2) with (x + (- (c * (x / (2 * c)))) * 2) by lia. rewrite Z.div_add by lia. lia. Qed.
Lemma v2s_wrap p : v2s2 (wrap L M p) = v2s2 p.
Proof. unfold v2s2, wrap. cbn [fst snd]. now rewrite !mod_even by (lia || assumption). Qed.
Lemma moved_any p (f : coord -> list coord) vs O : (forall q, f q = map (cadd q) vs) -> E (on (f p) O) = E (on (f (v2s2 p)) O).
Proof.
  intros Hf. transitivity (E (on (f (wrap L M p)) O)).
  - apply E_eq. intros s s' _ _. apply on_wrap. rewrite !Hf, !map_map. apply map_ext. intros v. symmetry. apply wrap_add.
  - rewrite (moved k0 L M E v2s2 HI _ f vs O (wrap_sites L M HL HM p) Hf). now rewrite v2s_wrap.
Qed.
Definition ex A (p : coord) : K := E (on [p; px p] (loc2 A)).
Definition ey A (p : coord) : K := E (on [p; py p] (loc2 A)).
Definition e4 Q (p : coord) : K := E (on (plaquette p) (prod22 k0 kmul Q Q)) +k E (on [p; py p; px p; pxy p] (prod22 k0 kmul Q Q)).
Lemma ex_any A p : ex A p = ex A (v2s2 p).
Proof. exact (moved_any p (fun q => [q; px q]) _ _ bx_vs). Qed.
Lemma ey_any A p : ey A p = ey A (v2s2 p).
Proof. exact (moved_any p (fun q => [q; py q]) _ _ by_vs). Qed.
Lemma xy_energy A B : E (H_xy k0 kadd L M A B) = ofnat n4 *k sum (map (fun k => ex A k +k ey B k) ks4).
Proof.
  unfold H_xy. rewrite E_add, sums.
  pose proof (tiled_gen k0 k1 kadd kmul ksub kopp Kr L M d E HE v2s2 ks4 n4 HT HI (fun q => [q; px q]) _ (fun c => loc2 A) bx_vs) as T1.
  pose proof (tiled_gen k0 k1 kadd kmul ksub kopp Kr L M d E HE v2s2 ks4 n4 HT HI (fun q => [q; py q]) _ (fun _ => loc2 B) by_vs) as T2. cbv beta in T1, T2.
  assert (Ex : E (osum k0 kadd (bonds_x L M) (bond k0 L M (loc2 A))) = E (osum k0 kadd sites (fun p => on [p; px p] (loc2 A)))) by (apply E_eq; intros s s' _ _; unfold osum, bonds_x; now rewrite map_map).
  assert (Ey : E (osum k0 kadd (bonds_y L M) (bond k0 L M (loc2 B))) = E (osum k0 kadd sites (fun p => on [p; py p] (loc2 B)))) by (apply E_eq; intros s s' _ _; unfold osum, bonds_y; now rewrite map_map).
  rewrite Ex, Ey, T1, T2. unfold ex, ey. ring.
Qed.
Lemma sites4 : ofnat (length sites) = ofnat n4 *k ofnat 4.
Proof. rewrite (tile_count L M v2s2 ks4 n4 HT), (ofnat_mul k0 k1 kadd kmul ksub kopp Kr). reflexivity. Qed.
Lemma four_hb (rdm : coord -> tensor K) A B : (forall k, In k ks4 -> reduced 4 (plaquette k) (rdm k)) ->
  exists h v t, hb_h k0 k1 kadd kmul d A B = Ok (h, v, t) /\ four_plaquettes k0 kadd kmul rdm h v = sum (map (fun k => ex A k +k ey B k) ks4).
Proof.
  intros Hr. destruct (h_hb k0 k1 kadd kmul ksub kopp Kr L M d HL HM A B) as (h & v & t & Eh & Gh & Gv & _ & H). exists h, v, t. split; [exact Eh|].
  assert (Ph : forall k, In k ks4 -> dot (rdm k) h = ex A k +k ex A (py k)).
  { intros k Hk. rewrite (dot4 k0 kadd kmul L M d E _ _ _ (Hr k Hk) Gh). unfold ex. rewrite <- E_add. apply E_eq. intros s s' Hs Hs'. exact (proj1 (H k s s' Hs Hs')). }
  assert (Pv : forall k, In k ks4 -> dot (rdm k) v = ey B k +k ey B (px k)).
  { intros k Hk. rewrite (dot4 k0 kadd kmul L M d E _ _ _ (Hr k Hk) Gv). unfold ey. rewrite <- E_add. apply E_eq. intros s s' Hs Hs'. exact (proj1 (proj2 (H k s s' Hs Hs'))). }
  unfold four_plaquettes. rewrite !Ph, !Pv by (cbn; tauto). rewrite (ex_any A (py (0, 0))), (ex_any A (py (1, 1))), (ey_any B (px (1, 0))), (ey_any B (px (0, 1))).
  change (v2s2 (py (0, 0))) with (0, 1). change (v2s2 (py (1, 1))) with (1, 0). change (v2s2 (px (1, 0))) with (0, 0). change (v2s2 (px (0, 1))) with (1, 1).
  unfold ks4. cbn [map fold_right]. ring.
Qed.
Theorem hb_four rdm A : (forall k, In k ks4 -> reduced 4 (plaquette k) (rdm k)) ->
  exists e, hb_energy_2x2_4site k0 k1 kadd kmul d rdm A = Ok e /\ ofnat (length sites) *k e = ofnat 4 *k E (H_xy k0 kadd L M A A).
Proof.
  intros Hr. destruct (four_hb rdm A A Hr) as (h & v & t & Eh & Ef). unfold hb_energy_2x2_4site. rewrite Eh. cbn [bind]. eexists. split; [reflexivity|].
  rewrite Ef, xy_energy, sites4. ring.
Qed.
Theorem cc_four rdm A B : (forall k, In k ks4 -> reduced 4 (plaquette k) (rdm k)) ->
  exists e, cc_energy_2x2_4site k0 k1 kadd kmul kdiv d rdm A B = Ok e /\ ofnat 2 *k (ofnat (length sites) *k e) = E (H_xy k0 kadd L M A B).
Proof.
  intros Hr. destruct (four_hb rdm A B Hr) as (h & v & t & Eh & Ef). unfold cc_energy_2x2_4site. rewrite Eh. cbn [bind]. eexists. split; [reflexivity|].
  rewrite xy_energy, sites4, <- Ef. set (f := four_plaquettes _ _ _ _ _ _). transitivity (ofnat n4 *k (ofnat 8 *k kdiv f 8)); [cbn; ring|]. now rewrite Hdiv.
Qed.
Theorem jq_four rdm j1 q A Q : (forall k, In k ks4 -> reduced 4 (plaquette k) (rdm k)) ->
  exists e, jq_energy_2x2_4site k0 k1 kadd kmul ksub kdiv d rdm j1 q A Q = Ok e /\ ofnat (length sites) *k e = E (H_jq k0 kadd kmul kopp L M j1 q A Q).
Proof.
  intros Hr. destruct (h_jq k0 k1 kadd kmul ksub kopp Kr L M d HL HM j1 q A Q) as (h & v & Eh & Gh & Gv & H). unfold jq_energy_2x2_4site. rewrite Eh. cbn [bind]. eexists. split; [reflexivity|].
  assert (Ph : forall k, In k ks4 -> dot (rdm k) h = j1 *k (ex A k +k ex A (py k)) -k q *k e4 Q k).
  { intros k Hk. rewrite (dot4 k0 kadd kmul L M d E _ _ _ (Hr k Hk) Gh).
    transitivity (E (oadd kadd (oscale kmul j1 (oadd kadd (on [k; px k] (loc2 A)) (on [py k; pxy k] (loc2 A)))) (oscale kmul (kopp q) (oadd kadd (on (plaquette k) (prod22 k0 kmul Q Q)) (on [k; py k; px k; pxy k] (prod22 k0 kmul Q Q)))))).
    - apply E_eq. intros s s' Hs Hs'. unfold oadd, oscale. etransitivity; [exact (proj1 (H k s s' Hs Hs'))|]. unfold B2, Q4, plaquette. ring.
    - rewrite !E_add, !E_scale, !E_add. unfold ex, e4. change (px (py k)) with (pxy k). ring. }
  assert (Pv : forall k, In k ks4 -> dot (rdm k) v = j1 *k (ey A k +k ey A (px k)) -k q *k e4 Q k).
  { intros k Hk. rewrite (dot4 k0 kadd kmul L M d E _ _ _ (Hr k Hk) Gv).
    transitivity (E (oadd kadd (oscale kmul j1 (oadd kadd (on [k; py k] (loc2 A)) (on [px k; pxy k] (loc2 A)))) (oscale kmul (kopp q) (oadd kadd (on (plaquette k) (prod22 k0 kmul Q Q)) (on [k; py k; px k; pxy k] (prod22 k0 kmul Q Q)))))).
    - apply E_eq. intros s s' Hs Hs'. unfold oadd, oscale. etransitivity; [exact (proj2 (H k s s' Hs Hs'))|]. unfold B2, Q4, plaquette. ring.
    - rewrite !E_add, !E_scale, !E_add. unfold ey, e4. change (py (px k)) with (pxy k). ring. }
  set (f := four_plaquettes _ _ _ _ _ _).
  assert (Ef : f = j1 *k sum (map (fun k => ex A k +k ey A k) ks4) -k q *k sum (map (e4 Q) ks4)).
  { unfold f, four_plaquettes. rewrite !Ph, !Pv by (cbn; tauto). rewrite (ex_any A (py (0, 0))), (ex_any A (py (1, 1))), (ey_any A (px (1, 0))), (ey_any A (px (0, 1))).
    change (v2s2 (py (0, 0))) with (0, 1). change (v2s2 (py (1, 1))) with (1, 0). change (v2s2 (px (1, 0))) with (0, 0). change (v2s2 (px (0, 1))) with (1, 1).
    unfold ks4. cbn [map fold_right]. ring. }
  rewrite sites4. transitivity (ofnat n4 *k (ofnat 4 *k kdiv f 4)); [ring|]. rewrite Hdiv by discriminate. rewrite Ef.
  unfold H_jq. rewrite E_add, !E_scale.
  assert (Exy : E (osum k0 kadd (bonds_nn L M) (bond k0 L M (loc2 A))) = E (H_xy k0 kadd L M A A)).
  { apply E_eq. intros s s' _ _. unfold H_xy, oadd, osum, bonds_nn. rewrite map_app. apply (sum_app k0 k1 kadd kmul ksub kopp Kr). }
  rewrite Exy, xy_energy.
  assert (E4 : E (osum k0 kadd sites (fun p => oadd kadd (on [p; px p; py p; pxy p] (prod22 k0 kmul Q Q)) (on [p; py p; px p; pxy p] (prod22 k0 kmul Q Q)))) = ofnat n4 *k sum (map (e4 Q) ks4)).
  { rewrite E_sum. rewrite <- (tile_sum k0 k1 kadd kmul ksub kopp Kr L M v2s2 ks4 n4 (e4 Q) HT). apply (sum_map_ext k0 kadd). intros p Hp. rewrite E_add. unfold e4. f_equal.
    - exact (moved_any p plaquette _ _ plaq_vs).
    - apply (moved_any p (fun p => [p; py p; px p; pxy p]) [(0, 0); (0, 1); (1, 0); (1, 1)]). intros [x y]. unfold py, px, pxy, cadd. cbn [map fst snd]. rewrite !Z.add_0_r. reflexivity. }
  rewrite E4. ring.
Qed.
End Four.
