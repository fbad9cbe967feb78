(** Hermiticity of the enlarged corner and of the absorbed half-row tensor. *)
From Verif Require Import Base BaseLemmas Tensor TensorLemmas Net NetSpec NetProofs NetProofs2 NetProofs3 Corners CornersSpec CornersProofs NetSym C4v CtmC4v CtmC4vSpec CtmC4vProofs.
From Coq Require Import Ring ArithRing Field_theory.
Open Scope list_scope.
Open Scope nat_scope.
Open Scope res_scope.

Section H.
Context {K : Type} (z o : K) (add mul : K -> K -> K) (cj : K -> K).
Hypothesis SR : semi_ring_theory z o add mul eq.
Hypothesis cj_z : cj z = z.
Hypothesis cj_o : cj o = o.
Hypothesis cj_add : forall x y, cj (add x y) = add (cj x) (cj y).
Hypothesis cj_mul : forall x y, cj (mul x y) = mul (cj x) (cj y).
Hypothesis cj_cj : forall x, cj (cj x) = x.
Variables chi d Dn : nat.
Notation ten := (tensor K).
Notation DC := (dims_corner chi d Dn).
Notation DR := (dims_row chi d Dn).
Notation entry := (entry z).

Lemma entry_out (t : ten) ix : twf t -> ~ in_range (tdims t) ix -> entry t ix = z.
Proof. intros W H. unfold NetSpec.entry. now rewrite tget_None. Qed.
Lemma in_range2 n m i j : in_range [n; m] [i; j] <-> i < n /\ j < m.
Proof. unfold in_range. split; [intros H; inversion H as [|? ? ? ? A B]; subst; inversion B; auto|intros [A B]; repeat constructor; assumption]. Qed.
Lemma in_range3 n m l i j k : in_range [n; m; l] [i; j; k] <-> i < n /\ j < m /\ k < l.
Proof. unfold in_range. split; [intros H; inversion H as [|? ? ? ? A B]; subst; inversion B as [|? ? ? ? A' B']; subst; inversion B'; auto|intros (A & B & C); repeat constructor; assumption]. Qed.
Lemma in_range5 n a b c e i j k l m : in_range [n; a; b; c; e] [i; j; k; l; m] <-> i < n /\ j < a /\ k < b /\ l < c /\ m < e.
Proof. unfold in_range. split.
  - intros H. repeat match goal with H : Forall2 _ (_ :: _) _ |- _ => inversion H; clear H; subst end. auto.
  - intros (A & B & C & E & G); repeat constructor; assumption. Qed.

Lemma herm_total n M : hermitian z cj n M -> forall i j, entry M [i; j] = cj (entry M [j; i]).
Proof. intros [[W E] H] i j. destruct (lt_dec i n) as [Hi|Hi]; [destruct (lt_dec j n) as [Hj|Hj]; [now apply H|]|];
  (rewrite !entry_out; [now rewrite cj_z|exact W| |exact W|]); rewrite E, in_range2; tauto. Qed.
Lemma row_total n m T : row_hermitian z cj n m T -> forall i j k, entry T [i; j; k] = cj (entry T [j; i; k]).
Proof. intros [[W E] H] i j k. destruct (lt_dec i n) as [Hi|Hi]; [destruct (lt_dec j n) as [Hj|Hj]; [destruct (lt_dec k m) as [Hk|Hk]; [now apply H|]|]|];
  (rewrite !entry_out; [now rewrite cj_z|exact W| |exact W|]); rewrite E, in_range3; tauto. Qed.
Lemma site_total a : c4v_site z cj d Dn a -> forall s u l w r,
    entry a [s; u; l; w; r] = cj (entry a [s; l; u; r; w]) /\ entry a [s; u; l; w; r] = cj (entry a [s; w; l; u; r]).
Proof. intros [[W E] H] s u l w r.
  destruct (lt_dec s d) as [H0|H0]; [destruct (lt_dec u Dn) as [H1|H1]; [destruct (lt_dec l Dn) as [H2|H2]; [destruct (lt_dec w Dn) as [H3|H3]; [destruct (lt_dec r Dn) as [H4|H4]; [now apply H|]|]|]|]|];
  (rewrite (entry_out a [s; u; l; w; r]), (entry_out a [s; l; u; r; w]), (entry_out a [s; w; l; u; r]); [now rewrite cj_z|exact W| |exact W| |exact W|]); rewrite E, in_range5; tauto. Qed.

Lemma herm_of_permute n M : shaped [n; n] M -> permute z (conj cj M) [1; 0] = Ok M -> hermitian z cj n M.
Proof. intros [W E] HP. split; [split; assumption|]. intros i j Hi Hj.
  unfold permute, tpermute in HP. cbn [tdims conj tmap] in HP. rewrite E in HP. cbn [length is_permb Nat.eqb forallb seq existsb andb orb nth map] in HP. injection HP as HP.
  assert (G := tget_tbuild [n; n] (fun ix => match tget (conj cj M) (unperm [1; 0] ix) with Some v => v | None => z end) [i; j]).
  rewrite HP in G. change (unperm [1; 0] [i; j]) with [j; i] in G. rewrite <- (entry_conj z cj cj_z).
  unfold NetSpec.entry at 1. rewrite G by (apply in_range2; split; assumption). reflexivity. Qed.
Lemma row_of_permute n m M : shaped [n; n; m] M -> permute z (conj cj M) [1; 0; 2] = Ok M -> row_hermitian z cj n m M.
Proof. intros [W E] HP. split; [split; assumption|]. intros i j k Hi Hj Hk.
  unfold permute, tpermute in HP. cbn [tdims conj tmap] in HP. rewrite E in HP. cbn [length is_permb Nat.eqb forallb seq existsb andb orb nth map] in HP. injection HP as HP.
  assert (G := tget_tbuild [n; n; m] (fun ix => match tget (conj cj M) (unperm [1; 0; 2] ix) with Some v => v | None => z end) [i; j; k]).
  rewrite HP in G. change (unperm [1; 0; 2] [i; j; k]) with [j; i; k] in G. rewrite <- (entry_conj z cj cj_z).
  unfold NetSpec.entry at 1. rewrite G by (apply in_range3; auto). reflexivity. Qed.

(** exchanging up-left and down-right *)
Definition swapC (l : nat) : nat := nth l [1; 0; 6; 7; 5; 4; 2; 3; 8; 10; 9; 12; 11] l.
(** exchanging up and down *)
Definition swapR (l : nat) : nat := nth l [3; 6; 7; 0; 4; 5; 1; 2; 8; 9; 11; 10; 12] l.
Lemma swapC_big l : 13 <= l -> swapC l = l.
Proof. intros H. unfold swapC. apply nth_overflow. exact H. Qed.
Lemma swapC_inv l : swapC (swapC l) = l.
Proof. do 13 (destruct l as [|l]; [reflexivity|]). match goal with |- swapC (swapC ?m) = _ => assert (E : swapC m = m) by (apply swapC_big; lia) end. now rewrite !E. Qed.
Lemma swapR_big l : 13 <= l -> swapR l = l.
Proof. intros H. unfold swapR. apply nth_overflow. exact H. Qed.
Lemma swapR_inv l : swapR (swapR l) = l.
Proof. do 13 (destruct l as [|l]; [reflexivity|]). match goal with |- swapR (swapR ?m) = _ => assert (E : swapR m = m) by (apply swapR_big; lia) end. now rewrite !E. Qed.
Lemma swapC_dim l : DC (swapC l) = DC l.
Proof. do 13 (destruct l as [|l]; [reflexivity|]). rewrite swapC_big by lia. reflexivity. Qed.
Lemma swapR_dim l : DR (swapR l) = DR l.
Proof. do 13 (destruct l as [|l]; [reflexivity|]). rewrite swapR_big by lia. reflexivity. Qed.

Lemma corner_herm C T a M : hermitian z cj chi C -> row_hermitian z cj chi (Dn * Dn) T -> c4v_site z cj d Dn a ->
  is_contraction DC z o add mul (net_corner cj C T a) out_corner M -> hermitian z cj (chi * (Dn * Dn)) M.
Proof. intros HC HT Ha HM.
  pose (net := net_corner cj C T a). pose (env := env_of net).
  assert (R : rep z o add mul DC env (mkS out_corner _ _) M) by exact (rep_of_contraction z o add mul DC net env (combine (seq 0 5) (map snd net)) out_corner M HM eq_refl).
  pose (fac' := [(0, [V 1; V 0]); (2, [V 1; V 4; FF 2 3]); (1, [V 5; V 0; FF 6 7]); (3, [V 8; V 6; V 2; V 10; V 9]); (4, [V 8; V 7; V 3; V 12; V 11])]).
  apply (rep_conj z o add mul cj cj_z cj_o cj_add cj_mul DC env env _ fac') in R.
  2:{ intros k. cbn. tauto. }
  2:{ cbn [s_fac combine seq map snd net net_corner]. unfold fac'.
      assert (A1 := herm_total _ _ HC). assert (A2 := row_total _ _ _ HT). assert (A3 := site_total _ Ha).
      repeat apply Forall2_cons; [..|apply Forall2_nil]; intros s; cbn [fst snd map lval env net env_of net_corner nth].
      - now rewrite (A1 (s 0)), cj_cj.
      - now rewrite (A2 (s 4)), cj_cj.
      - now rewrite (A2 (s 0)), cj_cj.
      - rewrite (proj1 (A3 (s 8) _ _ _ _)), cj_cj. reflexivity.
      - change (tmap cj a) with (conj cj a). rewrite !(entry_conj z cj cj_z). rewrite (proj1 (A3 (s 8) _ _ _ _)), cj_cj. reflexivity. }
  cbn [s_out s_bnd] in R.
  assert (P := rep_perm z o add mul DC env _ [1; 0] _ _ R eq_refl). destruct P as (M' & EP & RP).
  apply (rep_ren z o add mul DC env swapC) in RP; [|intros k l E; rewrite <- (swapC_inv k), E; apply swapC_inv|exact swapC_dim].
  assert (R0 : rep z o add mul DC env (mkS out_corner _ _) M) by exact (rep_of_contraction z o add mul DC net env (combine (seq 0 5) (map snd net)) out_corner M HM eq_refl).
  assert (M' = M). { apply (rep_eq z o add mul SR DC env _ _ _ _ RP R0); vm_compute; reflexivity. }
  subst M'. apply herm_of_permute; [|exact EP]. destruct HM as (W & E & _). split; [exact W|exact E]. Qed.

Lemma row_herm T a P M : row_hermitian z cj chi (Dn * Dn) T -> c4v_site z cj d Dn a ->
  is_contraction DR z o add mul (net_row cj T a P) out_row M -> row_hermitian z cj chi (Dn * Dn) M.
Proof. intros HT Ha HM.
  pose (net := net_row cj T a P). pose (env := env_of net).
  assert (R : rep z o add mul DR env (mkS out_row _ _) M) by exact (rep_of_contraction z o add mul DR net env (combine (seq 0 5) (map snd net)) out_row M HM eq_refl).
  pose (fac' := [(4, [F (V 0) (FF 1 2); V 10]); (1, [V 3; V 0; FF 4 5]); (2, [V 12; V 6; V 4; V 1; V 8]); (3, [V 12; V 7; V 5; V 2; V 9]); (0, [F (V 3) (FF 6 7); V 11])]).
  apply (rep_conj z o add mul cj cj_z cj_o cj_add cj_mul DR env env _ fac') in R.
  2:{ intros k. cbn. tauto. }
  2:{ cbn [s_fac combine seq map snd net net_row]. unfold fac'.
      assert (A2 := row_total _ _ _ HT). assert (A3 := site_total _ Ha).
      repeat apply Forall2_cons; [..|apply Forall2_nil]; intros s; cbn [fst snd map lval env net env_of net_row nth].
      - change (tmap cj P) with (conj cj P). now rewrite !(entry_conj z cj cj_z).
      - now rewrite (A2 (s 0)), cj_cj.
      - rewrite (proj2 (A3 (s 12) _ _ _ _)), cj_cj. reflexivity.
      - change (tmap cj a) with (conj cj a). rewrite !(entry_conj z cj cj_z). rewrite (proj2 (A3 (s 12) _ _ _ _)), cj_cj. reflexivity.
      - change (tmap cj P) with (conj cj P). now rewrite !(entry_conj z cj cj_z), cj_cj. }
  cbn [s_out s_bnd] in R.
  assert (Q := rep_perm z o add mul DR env _ [1; 0; 2] _ _ R eq_refl). destruct Q as (M' & EP & RP).
  apply (rep_ren z o add mul DR env swapR) in RP; [|intros k l E; rewrite <- (swapR_inv k), E; apply swapR_inv|exact swapR_dim].
  assert (R0 : rep z o add mul DR env (mkS out_row _ _) M) by exact (rep_of_contraction z o add mul DR net env (combine (seq 0 5) (map snd net)) out_row M HM eq_refl).
  assert (M' = M). { apply (rep_eq z o add mul SR DR env _ _ _ _ RP R0); vm_compute; reflexivity. }
  subst M'. apply row_of_permute; [|exact EP]. destruct HM as (W & E & _). split; [exact W|exact E]. Qed.
End H.
