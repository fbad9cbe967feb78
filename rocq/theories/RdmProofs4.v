(** Operators in MPO form. *)
From Verif Require Import Base BaseLemmas Lattice Tensor TensorLemmas Net NetSpec NetProofs NetProofs2 NetProofs3 Corners CornersSpec CornersProofs Rdm RdmSpec RdmProofs.
From Coq Require Import Ring ArithRing Permutation.
Open Scope list_scope.
Open Scope nat_scope.
Open Scope res_scope.

Fixpoint ren_leg (b a : nat) (t : leg) : leg := match t with V l => V (if l =? b then a else l) | F x y => F (ren_leg b a x) (ren_leg b a y) end.
Definition ren_net {K} (b a : nat) (net : list (tensor K * list leg)) := map (fun f => (fst f, map (ren_leg b a) (snd f))) net.

Section Eye.
Context {K : Type} (z o : K) (add mul : K -> K -> K).
Hypothesis SR : semi_ring_theory z o add mul eq.
Add Ring Kring : SR.
Variable D : nat -> nat.
Notation ten := (tensor K).
Notation isc := (is_contraction D z o add mul).
Notation product := (product D z o mul).
Lemma ldim_ren b a t : D a = D b -> ldim D (ren_leg b a t) = ldim D t.
Proof. intros E. induction t as [l|x IHx y IHy]; cbn; [|now rewrite IHx, IHy]. destruct (Nat.eqb_spec l b) as [->|]; [exact E|reflexivity]. Qed.
Lemma lval_ren b a t s : D a = D b -> lval D s (ren_leg b a t) = lval D (upd s b (s a)) t.
Proof. intros E. induction t as [l|x IHx y IHy]; cbn.
  - unfold upd. destruct (l =? b); reflexivity.
  - rewrite IHx, IHy, ldim_ren by exact E. reflexivity. Qed.
Lemma product_dep net : dep (net_bonds net) (product net).
Proof. intros s s' E. unfold NetSpec.product. f_equal. apply map_ext_in. intros f Hf. f_equal. apply map_ext_in.
  intros t Ht. apply lval_ext. intros k Hk. apply E. unfold net_bonds. apply nodup_In, in_flat_map. exists f. split; [exact Hf|].
  apply in_flat_map. exists t. split; assumption. Qed.
Lemma sum_delta (f : nat -> K) n i : i < n ->
  sum_list z add (map (fun k => mul (f k) (if i =? k then o else z)) (seq 0 n)) = f i.
Proof. intros Hi. revert f i Hi. induction n as [|n IH]; intros f i Hi; [lia|]. cbn [seq map]. rewrite <- seq_shift, map_map.
  change (sum_list z add (?a :: ?l)) with (add a (sum_list z add l)). destruct i as [|i].
  - rewrite (sl_ext z add _ (fun _ => z)) by (intros k _; cbn; ring). rewrite (sl_zero z o add mul SR (seq 0 n)). cbn. ring.
  - rewrite (sl_ext z add _ (fun k => mul (f (S k)) (if i =? k then o else z))) by reflexivity.
    rewrite (IH (fun k => f (S k)) i) by lia. cbn. ring. Qed.
Lemma entry_eye n i j : i < n -> j < n -> entry z (eye z o n) [i; j] = if i =? j then o else z.
Proof. intros Hi Hj. unfold entry, eye. rewrite tget_tbuild; [reflexivity|]. repeat constructor; assumption. Qed.
(** contracting with the identity joins two bonds *)
Lemma join_bonds (net : @network K) out M a b : D a = D b -> a <> b -> ~ In b (flat_map bonds out) ->
  Permutation (inner (net ++ [(eye z o (D a), [V a; V b])]) out) (inner (ren_net b a net) out ++ [b]) ->
  In a (inner (ren_net b a net) out) \/ In a (flat_map bonds out) ->
  isc (net ++ [(eye z o (D a), [V a; V b])]) out M -> isc (ren_net b a net) out M.
Proof. intros ED NE Hb HP Ha (W & Hd & HV). split; [exact W|]. split; [exact Hd|].
  intros s Hs. rewrite HV by exact Hs. f_equal.
  rewrite (so_perm z o add mul SR D _ _ _ _ HP (product_dep _)).
  rewrite so_app. apply so_ext. intros s' [VA VB].
  assert (La : s' a < D a).
  { destruct (in_dec Nat.eq_dec a (inner (ren_net b a net) out)) as [X|X]; [now apply VB|]. destruct Ha as [Ha|Ha]; [contradiction|]. rewrite VA by exact X. now apply Hs. }
  cbn [sum_over]. rewrite <- ED.
  transitivity (sum_list z add (map (fun i => mul (product net (upd s' b i)) (if s' a =? i then o else z)) (seq 0 (D a)))).
  - apply sl_ext. intros i Hi. apply in_seq in Hi. unfold NetSpec.product. rewrite map_app, (pl_app z o add mul SR). cbn -[entry].
    rewrite upd_same, upd_other by exact NE. rewrite entry_eye by lia. cbn. ring.
  - rewrite sum_delta by exact La. unfold NetSpec.product, ren_net. rewrite map_map. f_equal. apply map_ext. intros f. cbn [fst snd]. f_equal.
    rewrite map_map. apply map_ext. intros t. symmetry. now apply lval_ren. Qed.
End Eye.

Section R.
Context {K : Type} (z o : K) (add mul : K -> K -> K) (cj : K -> K).
Hypothesis SR : semi_ring_theory z o add mul eq.
Variable D : nat -> nat.
Notation ten := (tensor K).
Notation isc := (is_contraction D z o add mul).
Variables (A : nat -> nat -> ten) (C1 C2 C3 C4 : ten) (Tu Tr Td Tl : nat -> ten).
Notation patch w h l := (patch_net w h l cj A C1 C2 C3 C4 Tu Tr Td Tl).

Lemma mpo_2x2 m0 m1 m2 m3 : let l := [(0, 0); (1, 0); (0, 1); (1, 1)] in let net := patch 2 2 l ++ mpo_net 2 2 l [m0; m1; m2; m3] in
  fits D net ->
  exists M, mpo2x2_c z o add mul (tn2x2 cj C1 C2 C3 C4 (Tu 0) (Tl 0) (Tu 1) (Tr 0) (Tr 1) (Td 1) (Td 0) (Tl 1) (A 0 0) (A 1 0) (A 0 1) (A 1 1)) [m0; m1; m2; m3] = Ok M
    /\ isc net [] M.
Proof. intros l net HF. unfold net, l in *. start SR HF cj. singleE SR.
  - unfold mpo2x2_c, tn2x2. views. cbn [app Nat.add]. cein SR.
  - check. - reflexivity. Qed.
Lemma mpo_3x1 m0 m1 m2 : let l := [(0, 0); (0, 1); (0, 2)] in let net := patch 1 3 l ++ mpo_net 1 3 l [m0; m1; m2] in
  fits D net -> D (hket 1 3 1 1) = D (hket 1 3 1 2) ->
  exists M, mpo3x1_c z o add mul cj C1 C2 C3 C4 (Tu 0) (Tr 0) (Tr 1) (Tr 2) (Td 0) (Tl 0) (Tl 1) (Tl 2) (A 0 0) (A 0 1) (A 0 2) [m0; m1; m2] = Ok M
    /\ isc net [] M.
Proof. intros l net HF HE. unfold net, l in *. cbv [hket bond_id Nat.add Nat.mul] in HE. start SR HF cj. singleE SR.
  - unfold mpo3x1_c. do 8 step cflat. cein SR.
  - check. - reflexivity. Qed.
End R.
