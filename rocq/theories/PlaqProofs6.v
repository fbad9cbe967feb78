(** Energies from reduced density matrices of the inequivalent plaquettes. *)
From Coq Require Import Lia Ring Permutation.
From Verif Require Import Base BaseLemmas Tensor TensorLemmas Plaq PlaqSpec PlaqProofs PlaqProofs2 PlaqProofs3 PlaqProofs4 PlaqProofs5.
Open Scope list_scope.
Open Scope Z_scope.
Open Scope res_scope.

Section Energy.
Context {K : Type} (k0 k1 : K) (kadd kmul ksub : K -> K -> K) (kopp : K -> K).
Hypothesis Kr : ring_theory k0 k1 kadd kmul ksub kopp (@eq K).
Add Ring Kring6 : Kr.
Notation "a +k b" := (kadd a b) (at level 50, left associativity).
Notation "a -k b" := (ksub a b) (at level 50, left associativity).
Notation "a *k b" := (kmul a b) (at level 40, left associativity).
Notation sum l := (fold_right kadd k0 l).
Notation sums := (sum_map_add k0 k1 kadd kmul ksub kopp Kr).
Notation scales := (sum_map_scale k0 k1 kadd kmul ksub kopp Kr).
Notation ofnat := (ofnat k0 k1 kadd).
Notation dot := (dot k0 kadd kmul).
Variables (L M : Z) (d : nat).
Hypotheses (HL : 2 <= L) (HM : 2 <= M).
Notation sites := (sites L M).
Notation on := (on k0 L M).
Notation loc4 := (loc4 k0).
Notation loc2 := (loc2 k0).
Variable E : @operator K -> K.
Hypothesis HE : expectation kadd kmul d E.

Lemma E_eq A B : oeq d A B -> E A = E B.
Proof. apply HE. Qed.
Lemma E_add A B : E (oadd kadd A B) = E A +k E B.
Proof. apply HE. Qed.
Lemma E_scale c A : E (oscale kmul c A) = c *k E A.
Proof. apply HE. Qed.
Lemma E_sum {I} (l : list I) f : E (osum k0 kadd l f) = sum (map (fun i => E (f i)) l).
Proof.
  induction l as [|i l IH].
  - cbn. transitivity (E (oscale kmul k0 (osum k0 kadd [] f))); [|rewrite E_scale; ring]. apply E_eq. intros s s' _ _. unfold osum, oscale. cbn. ring.
  - change (osum k0 kadd (i :: l) f) with (oadd kadd (f i) (osum k0 kadd l f)). rewrite E_add, IH. reflexivity.
Qed.
Lemma ofnat_add a b : ofnat (a + b) = ofnat a +k ofnat b.
Proof. induction a as [|a IH]; cbn; [ring|]. rewrite IH. ring. Qed.
Lemma ofnat_mul a b : ofnat (a * b) = ofnat a *k ofnat b.
Proof. induction a as [|a IH]; cbn [Nat.mul PlaqSpec.ofnat]; [ring|]. rewrite ofnat_add, IH. ring. Qed.

(** ** contraction with a reduced density matrix *)
Lemma tdata_el (t : tensor K) : twf t -> tdata t = map (Plaq.el k0 t) (indices (tdims t)).
Proof. intros H. rewrite <- (tbuild_tget k0 t H) at 1. reflexivity. Qed.
Lemma dot_sum (a b : tensor K) : twf a -> twf b -> tdims a = tdims b ->
  dot a b = sum (map (fun ix => Plaq.el k0 a ix *k Plaq.el k0 b ix) (indices (tdims a))).
Proof.
  intros Ha Hb Hd. unfold Plaq.dot, ksum. rewrite (tdata_el a Ha), (tdata_el b Hb), <- Hd. f_equal.
  induction (indices (tdims a)) as [|i l IH]; [reflexivity|]. cbn. now rewrite IH.
Qed.
Lemma dot4 ps r t : reduced k0 kadd kmul L M d E 4 ps r -> good d t -> dot r t = E (on ps (loc4 t)).
Proof.
  intros (Dr & Wr & H) [Wt Dt]. rewrite H, dot_sum by (try assumption; now rewrite Dr, Dt). rewrite Dr. apply (sum_map_ext k0 kadd). intros ix Hix.
  unfold Plaq.el, PlaqSpec.loc4. now rewrite firstn_skipn.
Qed.
Lemma dot2 ps r t : reduced k0 kadd kmul L M d E 2 ps r -> twf t -> tdims t = [d; d; d; d] -> dot r t = E (on ps (loc2 t)).
Proof.
  intros (Dr & Wr & H) Wt Dt. rewrite H, dot_sum by (try assumption; now rewrite Dr, Dt). rewrite Dr. apply (sum_map_ext k0 kadd). intros ix Hix.
  apply In_indices in Hix. apply in_range_length in Hix. cbn in Hix. destruct ix as [|i [|j [|a [|b [|]]]]]; try discriminate. reflexivity.
Qed.

(** ** sums over a tiling *)
Lemma add_at (ks : list coord) k (g c : coord -> K) : NoDup ks -> In k ks ->
  sum (map (fun j => (if eqb k j then k1 +k c j else c j) *k g j) ks) = g k +k sum (map (fun j => c j *k g j) ks).
Proof.
  induction ks as [|j ks IH]; intros Hn Hi; [destruct Hi|]. inversion Hn as [|? ? Hj Hn']; subst. cbn [map fold_right].
  destruct (eqb k j) eqn:Ej.
  - apply (eqb_true (A:=coord)) in Ej. subst j. rewrite (sum_map_ext k0 kadd ks _ (fun j => c j *k g j)); [ring|].
    intros i Hii. destruct (eqb k i) eqn:Ei; [|reflexivity]. apply (eqb_true (A:=coord)) in Ei. subst i. contradiction.
  - destruct Hi as [-> |Hi]; [rewrite (proj2 (eqb_true (A:=coord) k k) eq_refl) in Ej; discriminate|]. rewrite IH by assumption. ring.
Qed.
Definition cnt (v2s : coord -> coord) (l : list coord) (k : coord) : nat := length (filter (fun p => eqb (v2s p) k) l).
Lemma tile_sum_gen (v2s : coord -> coord) ks (g : coord -> K) l : NoDup ks -> (forall p, In p l -> In (v2s p) ks) ->
  sum (map (fun p => g (v2s p)) l) = sum (map (fun k => ofnat (cnt v2s l k) *k g k) ks).
Proof.
  intros Hn. induction l as [|p l IH]; intros Hl.
  - cbn. symmetry. apply (sum_zero k0 k1 kadd kmul ksub kopp Kr). intros k _. ring.
  - cbn [map fold_right]. rewrite IH by (intros q Hq; apply Hl; now right).
    rewrite <- (add_at ks (v2s p) g (fun k => ofnat (cnt v2s l k)) Hn (Hl p (or_introl eq_refl))). apply (sum_map_ext k0 kadd). intros k _.
    unfold cnt. cbn [filter]. destruct (eqb (v2s p) k); reflexivity.
Qed.
Lemma tile_sum v2s ks n (g : coord -> K) : tiling L M v2s ks n -> sum (map (fun p => g (v2s p)) sites) = ofnat n *k sum (map g ks).
Proof.
  intros (Hn & Hi & Hc). rewrite (tile_sum_gen v2s ks g sites Hn Hi), <- scales. apply (sum_map_ext k0 kadd). intros k Hk. unfold cnt. now rewrite Hc.
Qed.
End Energy.
Lemma tile_count L M v2s ks n : tiling L M v2s ks n -> length (sites L M) = (n * length ks)%nat.
Proof.
  intros (Hn & Hi & Hc).
  assert (H : forall l : list coord, (forall p, In p l -> In (v2s p) ks) -> length l = list_sum (map (fun k => length (filter (fun p => eqb (v2s p) k) l)) ks)).
  { assert (A1 : forall c ks (f : coord -> nat), NoDup ks -> In c ks -> list_sum (map (fun k => if eqb c k then S (f k) else f k) ks) = S (list_sum (map f ks))).
    { clear. induction ks as [|j ks IH]; intros f Hn Hi; [destruct Hi|]. inversion Hn as [|? ? Hj Hn']; subst. cbn [map list_sum fold_right].
      change (fold_right Nat.add 0%nat) with list_sum. destruct (eqb c j) eqn:Ej.
      - apply (eqb_true (A:=coord)) in Ej. subst j. cbn. do 2 f_equal. f_equal. apply map_ext_in. intros i Hii. destruct (eqb c i) eqn:Ei; [|reflexivity]. apply (eqb_true (A:=coord)) in Ei. subst i. contradiction.
      - destruct Hi as [-> |Hi]; [rewrite (proj2 (eqb_true (A:=coord) c c) eq_refl) in Ej; discriminate|]. rewrite IH by assumption. lia. }
    induction l as [|p l IH]; intros Hl.
    - cbn. induction ks as [|k ks' IHk]; [reflexivity|]. cbn. clear -ks'. induction ks' as [|? ? IH]; [reflexivity | exact IH].
    - cbn [length]. rewrite IH by (intros q Hq; apply Hl; now right). rewrite <- (A1 (v2s p) ks _ Hn (Hl p (or_introl eq_refl))). f_equal. apply map_ext. intros k. cbn [filter]. destruct (eqb (v2s p) k); reflexivity. }
  rewrite (H _ Hi). clear H Hi. assert (Q : map (fun k => length (filter (fun p => eqb (v2s p) k) (sites L M))) ks = map (fun _ => n) ks) by (now apply map_ext_in).
  rewrite Q. clear. induction ks as [|k ks IH]; cbn in *; [lia|]. change (fold_right Nat.add 0%nat) with list_sum. rewrite IH. lia.
Qed.
