(** Third neighbours, the spin exchange, product states and counterexamples. *)
From Coq Require Import Lia Ring Permutation Reals ZArithRing.
From Verif Require Import Base BaseLemmas Tensor TensorLemmas Su2 Su2Spec Su2Proofs Plaq PlaqSpec PlaqProofs PlaqProofs2 PlaqProofs3 PlaqProofs4 PlaqProofs5 PlaqProofs6 PlaqProofs7 PlaqProofs8 PlaqProofs9.
Open Scope list_scope.
Open Scope Z_scope.
Open Scope res_scope.

(** the exchange operator with equal second and third coupling is symmetric *)
Lemma SS_symmetric2 m x y t : SS m x y y = Ok t -> symmetric2 0%R m t.
Proof.
  intros Et i j a b Hi Hj Ha Hb. destruct (SS_mel m x y y) as (t' & Sz & Sp & Sm & E & _ & _ & _ & D & _ & _ & _ & G). rewrite Et in E. inv E.
  change (loc2 0%R t' [i; j] [a; b]) with (mel4 t' i j a b). change (loc2 0%R t' [j; i] [b; a]) with (mel4 t' j i b a). rewrite !G by assumption. ring.
Qed.

Section Nnnn.
Context {K : Type} (k0 k1 : K) (kadd kmul ksub : K -> K -> K) (kopp : K -> K).
Hypothesis Kr : ring_theory k0 k1 kadd kmul ksub kopp (@eq K).
Add Ring Kring10 : Kr.
Variables (L M : Z) (d : nat) (half : K) (E : @operator K -> K).
Hypothesis HE : expectation kadd kmul d E.
Variables Sz Sp Sm : tensor K.
Definition opof (o : lop) : tensor K := match o with Lz => Sz | Lp => Sp | Lm => Sm end.
Definition step (c dir : coord) (r : Z) : coord := (fst c + r * fst dir, snd c + r * snd dir).
(** sz sz + half (sp sm + sm sp) *)
Definition exchange11 : @local K := fun i a => kadd (prod11 k0 kmul Sz Sz i a) (kmul half (kadd (prod11 k0 kmul Sp Sm i a) (prod11 k0 kmul Sm Sp i a))).
Theorem nnnn_exchange (corr : coord -> coord -> lop -> lop -> list K) c :
  (forall dir a b, In dir [(1, 0); (0, 1)] -> nth_error (corr c dir a b) 1 = Some (E (on k0 L M [c; step c dir 2] (prod11 k0 kmul (opof a) (opof b))))) ->
  eval_nnnn kadd kmul half corr c = Ok (kadd (E (on k0 L M [c; step c (1, 0) 2] exchange11)) (E (on k0 L M [c; step c (0, 1) 2] exchange11))).
Proof.
  intros H. unfold eval_nnnn. rewrite !H by (cbn; tauto). cbn [bind opof]. f_equal.
  assert (Q : forall q, E (on k0 L M [c; q] exchange11) = kadd (E (on k0 L M [c; q] (prod11 k0 kmul Sz Sz))) (kmul half (kadd (E (on k0 L M [c; q] (prod11 k0 kmul Sp Sm))) (E (on k0 L M [c; q] (prod11 k0 kmul Sm Sp)))))).
  { intros q. rewrite <- (E_add kadd kmul d E HE), <- (E_scale kadd kmul d E HE), <- (E_add kadd kmul d E HE). apply (E_eq kadd kmul d E HE). intros s s' _ _.
    unfold oadd, oscale, on, exchange11. destruct agree_off; [reflexivity | ring]. }
  rewrite !Q. ring.
Qed.

(** a product state with the same local basis state everywhere *)
Variable c : nat.
Hypothesis Hc : (c < d)%nat.
Definition basis (O : @operator K) : K := O (fun _ => c) (fun _ => c).
Lemma basis_on ps O : basis (on k0 L M ps O) = O (repeat c (length ps)) (repeat c (length ps)).
Proof.
  unfold basis, on. replace (agree_off L M (map (wrap L M) ps) (fun _ => c) (fun _ => c)) with true.
  - assert (Q : forall l : list coord, map (fun _ => c) l = repeat c (length l)) by (induction l as [|x l IH]; cbn; congruence). now rewrite Q.
  - symmetry. unfold agree_off. apply forallb_forall. intros p _. rewrite Nat.eqb_refl. apply orb_true_r.
Qed.
Lemma basis_expectation : expectation kadd kmul d basis.
Proof. split; [|split]; [intros A B H; apply H; intros p; exact Hc | reflexivity | reflexivity]. Qed.
Lemma basis_invariant v2s : invariant k0 L M basis v2s.
Proof. intros p ps O _. rewrite !basis_on, map_length. reflexivity. Qed.
Definition basis_rdm (n : nat) : tensor K := tbuild (repeat d (2 * n)) (fun ix => if eqb ix (repeat c (2 * n)) then k1 else k0).
Lemma firstn_repeat' (x : nat) n m : firstn n (repeat x (n + m)) = repeat x n.
Proof. induction n as [|n IH]; [reflexivity|]. cbn. now rewrite IH. Qed.
Lemma skipn_repeat' (x : nat) n m : skipn n (repeat x (n + m)) = repeat x m.
Proof. induction n as [|n IH]; [reflexivity|]. exact IH. Qed.
Lemma basis_reduced n ps : length ps = n -> reduced k0 kadd kmul L M d basis n ps (basis_rdm n).
Proof.
  intros Hn. split; [reflexivity|]. split; [apply twf_tbuild|]. intros O. rewrite basis_on, Hn.
  assert (In (repeat c (2 * n)) (indices (repeat d (2 * n)))) as Hin.
  { apply In_indices. clear -Hc. generalize (2 * n)%nat as k. induction k as [|k IH]; cbn; [constructor|]. apply Forall2_cons; assumption. }
  pose proof (sum_delta k0 k1 kadd kmul ksub kopp Kr (indices (repeat d (2 * n))) (repeat c (2 * n)) (fun ix => O (firstn n ix) (skipn n ix)) (NoDup_indices _) Hin) as Q. cbv beta in Q.
  assert (Q1 : firstn n (repeat c (2 * n)) = repeat c n) by (replace (2 * n)%nat with (n + n)%nat by lia; apply firstn_repeat').
  assert (Q2 : skipn n (repeat c (2 * n)) = repeat c n) by (replace (2 * n)%nat with (n + n)%nat by lia; apply skipn_repeat').
  rewrite Q1, Q2 in Q. rewrite <- Q.
  apply (sum_map_ext k0 kadd). intros ix Hix. f_equal. unfold basis_rdm. rewrite tget_tbuild by (now apply In_indices). reflexivity.
Qed.
End Nnnn.

(** ** counterexamples over the integers *)
Definition kdivz (x : Z) (m : nat) : Z := x / Z.of_nat m.
Definition Szz : tensor Z := tbuild [2; 2; 2; 2]%nat (fun ix => match ix with [i; j; a; b] => if Nat.eqb i a && Nat.eqb j b then (if Nat.eqb i j then 1 else -1) else 0 | _ => 0 end).
Definition Sx2 : tensor Z := mkT [2; 2]%nat [0; 1; 1; 0].
Definition Id2 : tensor Z := mkT [2; 2]%nat [1; 0; 0; 1].
Definition getOk {A} (dflt : A) (r : res A) : A := match r with Ok a => a | Err _ => dflt end.
Lemma ising_refuted : exists q hp, ising_hp 0 1 Z.mul Z.sub Z.opp 2 q 0 Szz Sx2 Id2 = Ok hp /\
  ~ oeq 2 (osum 0 Z.add (sites 2 2) (fun p => on 0 2 2 (plaquette p) (loc4 0 hp))) (H_ising 0 1 Z.add Z.mul Z.opp 2 2 q 0 Szz Sx2).
Proof.
  exists 1. exists (getOk (mkT [] []) (ising_hp 0 1 Z.mul Z.sub Z.opp 2 1 0 Szz Sx2 Id2)). split; [vm_compute; reflexivity|].
  intros H. assert (V : valid 2 (fun _ => 0%nat)) by (intros p; lia). specialize (H _ _ V V). vm_compute in H. discriminate.
Qed.
Lemma hb_refuted : exists (E : @operator Z -> Z) rdm e, expectation Z.add Z.mul 2 E /\ invariant 0 2 2 E v2s2 /\
  (forall k, In k ks4 -> reduced 0 Z.add Z.mul 2 2 2 E 4 (plaquette k) (rdm k)) /\
  hb_energy_2x2_4site 0 1 Z.add Z.mul 2 rdm Szz = Ok e /\ ofnat 0 1 Z.add (length (sites 2 2)) * e <> E (H_xy 0 Z.add 2 2 Szz Szz).
Proof.
  exists (basis 0), (fun _ => basis_rdm 0 1 2 0 4), 8. split; [apply basis_expectation; lia|]. split; [apply basis_invariant|].
  split; [intros k _; apply (basis_reduced 0 1 Z.add Z.mul Z.sub Z.opp Zth); [lia | reflexivity]|]. split; [vm_compute; reflexivity|]. vm_compute. discriminate.
Qed.
Lemma cc_refuted : exists (E : @operator Z -> Z) rdm e, expectation Z.add Z.mul 2 E /\ invariant 0 2 2 E v2s2 /\
  (forall k, In k ks4 -> reduced 0 Z.add Z.mul 2 2 2 E 4 (plaquette k) (rdm k)) /\
  cc_energy_2x2_4site 0 1 Z.add Z.mul kdivz 2 rdm Szz Szz = Ok e /\ ofnat 0 1 Z.add (length (sites 2 2)) * e <> E (H_xy 0 Z.add 2 2 Szz Szz).
Proof.
  exists (basis 0), (fun _ => basis_rdm 0 1 2 0 4), 1. split; [apply basis_expectation; lia|]. split; [apply basis_invariant|].
  split; [intros k _; apply (basis_reduced 0 1 Z.add Z.mul Z.sub Z.opp Zth); [lia | reflexivity]|]. split; [vm_compute; reflexivity|]. vm_compute. discriminate.
Qed.
Definition nzz (x : Z) : bool := negb (Z.eqb x 0).
Definition zero4 : tensor Z := tzeros 0 [2; 2; 2; 2]%nat.
Definition zero2 : tensor Z := tzeros 0 [2; 2]%nat.
Lemma nnnn_refuted : exists (ks : list coord) rdm (nnnn : coord -> Z) e, NoDup ks /\
  energy_per_site 0 1 Z.add Z.mul Z.sub Z.opp 0 0 kdivz nzz 2 0 0 1 0 0 zero4 zero4 zero2 zero2 ks rdm (tzeros 0 (D8 2)) nnnn = Ok e /\
  Z.of_nat (length ks) * e <> fold_right Z.add 0 (map nnnn ks).
Proof.
  exists [(0, 0); (1, 0)], (fun _ => basis_rdm 0 1 2 0 4), (fun c => if Z.eqb (fst c) 0 then 1 else 3), 1.
  split; [repeat constructor; cbn; intuition congruence|]. split; [vm_compute; reflexivity|]. vm_compute. discriminate.
Qed.
Section Uniform.
Context {K : Type} (k0 k1 : K) (kadd kmul ksub : K -> K -> K) (kopp : K -> K).
Hypothesis Kr : ring_theory k0 k1 kadd kmul ksub kopp (@eq K).
Add Ring Kring11 : Kr.
Lemma nnnn_uniform (nnnn : coord -> K) j3 ks : (forall k, In k ks -> nnnn k = nnnn (0, 0)) ->
  kmul (ofnat k0 k1 kadd (length ks)) (kmul j3 (nnnn (0, 0))) = kmul j3 (fold_right kadd k0 (map nnnn ks)).
Proof.
  induction ks as [|k ks IH]; intros H; [cbn; ring|]. cbn [length map fold_right ofnat]. rewrite (H k (or_introl eq_refl)).
  transitivity (kadd (kmul j3 (nnnn (0, 0))) (kmul (ofnat k0 k1 kadd (length ks)) (kmul j3 (nnnn (0, 0))))); [ring|]. rewrite IH by (intros; apply H; now right). ring.
Qed.
End Uniform.
