(** The rotated tensors of the models; sums over the two sublattices. *)
From Coq Require Import Lia Ring Permutation.
From Verif Require Import Base BaseLemmas Tensor TensorLemmas Plaq PlaqSpec PlaqProofs PlaqProofs2 PlaqProofs3 PlaqProofs6 Bip BipSpec BipProofs.
Open Scope list_scope.
Open Scope Z_scope.

Section T.
Context {K : Type} (k0 k1 : K) (kadd kmul ksub : K -> K -> K) (kopp : K -> K).
Hypothesis Kr : ring_theory k0 k1 kadd kmul ksub kopp (@eq K).
Add Ring KringB2 : Kr.
Notation "a +k b" := (kadd a b) (at level 50, left associativity).
Notation "a *k b" := (kmul a b) (at level 40, left associativity).
Notation sum l := (fold_right kadd k0 l).
Variable d : nat.
Variables (flip : nat -> nat) (sg : nat -> K).
Hypothesis SF : signed_flip k1 kmul d flip sg.
Notation turned := (turned k1 kmul flip sg).
Notation loc2 := (loc2 k0).
Notation loc1 := (loc1 k0).
Notation loc4 := (loc4 k0).
Notation el := (Plaq.el k0).
Variable r : tensor K.
Hypothesis Hr : rotation_matrix k0 d flip sg r.

Lemma sum_single {I} (l : list I) x f : NoDup l -> In x l -> (forall i, In i l -> i <> x -> f i = k0) -> sum (map f l) = f x.
Proof.
  induction l as [|y l IH]; intros ND Hin Hz; [destruct Hin|]. inversion ND as [|? ? Hn ND']; subst. cbn [map fold_right]. destruct Hin as [-> |Hin].
  - rewrite (sum_zero k0 k1 kadd kmul ksub kopp Kr l f); [ring|]. intros i Hi. apply Hz; [now right|]. intros ->. contradiction.
  - rewrite IH by (auto; intros; apply Hz; auto; now right). rewrite (Hz y); [ring | now left|]. intros ->. contradiction.
Qed.
Lemma r_el i j : (i < d)%nat -> (j < d)%nat -> el r [i; j] = if Nat.eqb j (flip i) then sg i else k0.
Proof. exact (Hr i j). Qed.
(** column j has its only element in row flip j *)
Lemma r_col i j : (i < d)%nat -> (j < d)%nat -> i <> flip j -> el r [i; j] = k0.
Proof.
  intros Hi Hj N. rewrite r_el by assumption. destruct (Nat.eqb_spec j (flip i)) as [E|]; [|reflexivity]. exfalso. apply N. subst j. symmetry. now apply (flip_flip k1 kmul d flip sg SF).
Qed.
Lemma r_flip j : (j < d)%nat -> el r [flip j; j] = sg (flip j).
Proof. intros Hj. rewrite r_el by (try assumption; now apply (flip_lt k1 kmul d flip sg SF)). rewrite (flip_flip k1 kmul d flip sg SF) by assumption. now rewrite Nat.eqb_refl. Qed.
Lemma flt j : (j < d)%nat -> (flip j < d)%nat.
Proof. exact (flip_lt k1 kmul d flip sg SF j). Qed.

Ltac rg := repeat (apply Forall2_cons; [first [assumption | apply flt; assumption]|]); constructor.
Lemma rot_mid_loc t i a : ok4 d i -> ok4 d a -> loc4 (rot_mid k0 kadd kmul d r t) i a = turned [false; true; true; false] (loc4 t) i a.
Proof.
  intros Hi Ha. rewrite loc4_el. unfold rot_mid. rewrite el_build by (now apply range8).
  apply ok4_inv in Hi, Ha. destruct Hi as (i0 & i1 & i2 & i3 & -> & ? & ? & ? & ?), Ha as (a0 & a1 & a2 & a3 & -> & ? & ? & ? & ?).
  cbn [app]. unfold ksum. rewrite (sum_single (indices [d; d; d; d]) [flip i1; flip i2; flip a1; flip a2]).
  - rewrite !r_flip by assumption. unfold BipSpec.turned, signs, flips, PlaqSpec.loc4, Plaq.el. cbn [combine map fold_right fst snd app]. ring.
  - apply NoDup_indices.
  - apply In_indices. rg.
  - intros ix Hix N. apply In_indices in Hix. pose proof (in_range_length _ _ Hix) as Hl. destruct ix as [|x [|y [|u [|v [|]]]]]; try discriminate Hl.
    inversion Hix as [|? ? ? ? Hx Q1]; subst. inversion Q1 as [|? ? ? ? Hy Q2]; subst. inversion Q2 as [|? ? ? ? Hu Q3]; subst. inversion Q3 as [|? ? ? ? Hv Q4]; subst.
    destruct (Nat.eq_dec x (flip i1)) as [-> |Nx]; [|rewrite (r_col x i1) by assumption; ring]. destruct (Nat.eq_dec y (flip i2)) as [-> |Ny]; [|rewrite (r_col y i2) by assumption; ring].
    destruct (Nat.eq_dec u (flip a1)) as [-> |Nu]; [|rewrite (r_col u a1) by assumption; ring]. destruct (Nat.eq_dec v (flip a2)) as [-> |Nv]; [|rewrite (r_col v a2) by assumption; ring].
    congruence.
Qed.
Lemma rot_mid_good t : good d (rot_mid k0 kadd kmul d r t).
Proof. apply good_build. Qed.
Lemma within2 i : within d 2 i -> exists a b, i = [a; b] /\ (a < d)%nat /\ (b < d)%nat.
Proof. intros [Hl HF]. destruct i as [|a [|b [|]]]; try discriminate. inversion HF as [|? ? Ha H1]; subst. inversion H1; subst. eauto. Qed.
Lemma within1 i : within d 1 i -> exists a, i = [a] /\ (a < d)%nat.
Proof. intros [Hl HF]. destruct i as [|a [|]]; try discriminate. inversion HF; subst. eauto. Qed.
Lemma rot_first_loc t i a : within d 2 i -> within d 2 a -> loc2 (rot_first k0 kadd kmul d r t) i a = turned [true; false] (loc2 t) i a.
Proof.
  intros Hi Ha. apply within2 in Hi, Ha. destruct Hi as (i0 & i1 & -> & ? & ?), Ha as (a0 & a1 & -> & ? & ?). unfold PlaqSpec.loc2 at 1, rot_first. rewrite tget_tbuild by rg.
  unfold ksum. rewrite (sum_single (indices [d; d]) [flip i0; flip a0]).
  - rewrite !r_flip by assumption. unfold BipSpec.turned, signs, flips, PlaqSpec.loc2, Plaq.el. cbn [combine map fold_right fst snd app]. ring.
  - apply NoDup_indices.
  - apply In_indices. rg.
  - intros ix Hix N. apply In_indices in Hix. pose proof (in_range_length _ _ Hix) as Hl. destruct ix as [|x [|y [|]]]; try discriminate Hl.
    inversion Hix as [|? ? ? ? Hx Q1]; subst. inversion Q1 as [|? ? ? ? Hy Q2]; subst.
    destruct (Nat.eq_dec x (flip i0)) as [-> |Nx]; [|rewrite (r_col x i0) by assumption; ring]. destruct (Nat.eq_dec y (flip a0)) as [-> |Ny]; [|rewrite (r_col y a0) by assumption; ring].
    congruence.
Qed.
(** R on both sides instead of R^T and R: the sign eps = R^2 *)
Lemma rot_second_loc t i a : (forall j, (j < d)%nat -> sg j *k sg (flip j) = k1) -> within d 2 i -> within d 2 a ->
  loc2 (rot_second k0 kadd kmul d r t) i a = turned [false; true] (loc2 t) i a.
Proof.
  intros He Hi Ha. apply within2 in Hi, Ha. destruct Hi as (i0 & i1 & -> & ? & ?), Ha as (a0 & a1 & -> & ? & ?). unfold PlaqSpec.loc2 at 1, rot_second. rewrite tget_tbuild by rg.
  unfold ksum. rewrite (sum_single (indices [d; d]) [flip i1; flip a1]).
  - rewrite r_flip by assumption. rewrite r_el by (first [assumption | apply flt; assumption]). rewrite Nat.eqb_refl. unfold BipSpec.turned, signs, flips, PlaqSpec.loc2, Plaq.el. cbn [combine map fold_right fst snd app].
    assert (Q : sg i1 = sg (flip i1)).
    { transitivity (sg i1 *k (sg (flip i1) *k sg (flip i1))); [rewrite (sg_sq k1 kmul d flip sg SF) by (now apply flt); ring|]. transitivity ((sg i1 *k sg (flip i1)) *k sg (flip i1)); [ring|]. rewrite He by assumption. ring. }
    rewrite Q. ring.
  - apply NoDup_indices.
  - apply In_indices. rg.
  - intros ix Hix N. apply In_indices in Hix. pose proof (in_range_length _ _ Hix) as Hl. destruct ix as [|x [|y [|]]]; try discriminate Hl.
    inversion Hix as [|? ? ? ? Hx Q1]; subst. inversion Q1 as [|? ? ? ? Hy Q2]; subst.
    destruct (Nat.eq_dec y (flip a1)) as [-> |Ny]; [|rewrite (r_col y a1) by assumption; ring].
    rewrite (r_el i1 x) by assumption. destruct (Nat.eqb_spec x (flip i1)) as [-> |Nx]; [congruence | ring].
Qed.
(** turning twice *)
Lemma turned_twice (bs cs : list bool) (O : local) n i a : length bs = n -> length cs = n -> within d n i -> within d n a ->
  turned bs (turned cs O) i a = turned (map (fun bc => xorb (fst bc) (snd bc)) (combine bs cs)) O i a.
Proof.
  intros Hb Hc [Li Fi] [La Fa]. unfold BipSpec.turned.
  assert (FF : forall n bs cs i, length bs = n -> length cs = n -> length i = n -> Forall (fun x => (x < d)%nat) i ->
    flips flip cs (flips flip bs i) = flips flip (map (fun bc => xorb (fst bc) (snd bc)) (combine bs cs)) i).
  { clear - SF. induction n as [|n IH]; intros [|b bs] [|c cs] [|x i] Hb Hc Hi HF; try discriminate; [reflexivity|]. inversion HF; subst. cbn [combine map fst snd flips].
    unfold flips in *. cbn [combine map fst snd]. f_equal; [|apply IH; auto]. destruct b, c; cbn; try reflexivity. now apply (flip_flip k1 kmul d flip sg SF). }
  assert (SS : forall n bs cs i a, length bs = n -> length cs = n -> length i = n -> length a = n -> Forall (fun x => (x < d)%nat) i -> Forall (fun x => (x < d)%nat) a ->
    signs k1 kmul flip sg bs i *k signs k1 kmul flip sg bs a *k (signs k1 kmul flip sg cs (flips flip bs i) *k signs k1 kmul flip sg cs (flips flip bs a)) =
    signs k1 kmul flip sg (map (fun bc => xorb (fst bc) (snd bc)) (combine bs cs)) i *k signs k1 kmul flip sg (map (fun bc => xorb (fst bc) (snd bc)) (combine bs cs)) a).
  { clear - SF Kr. destruct (proj2 SF) as (eps & He). induction n as [|n IH]; intros [|b bs] [|c cs] [|x i] [|y a] Hb Hc Hi Ha HF HG; try discriminate; [unfold signs; cbn; ring|]. inversion HF; subst. inversion HG; subst.
    unfold signs, flips in *. cbn [combine map fst snd fold_right]. specialize (IH bs cs i a ltac:(auto) ltac:(auto) ltac:(auto) ltac:(auto) ltac:(auto) ltac:(auto)).
    match goal with H : ?l = ?rr |- _ => match l with kmul _ _ => assert (Q : forall u v w z, u *k v *k (w *k z) = u *k w *k (v *k z)) by (intros; ring) end end.
    destruct b, c; cbn [xorb].
    - rewrite (flip_flip k1 kmul d flip sg SF x), (flip_flip k1 kmul d flip sg SF y) by assumption.
      match goal with |- sg (flip x) *k ?p1 *k (sg (flip y) *k ?p2) *k (sg x *k ?p3 *k (sg y *k ?p4)) = _ =>
        transitivity ((sg x *k sg (flip x)) *k (sg y *k sg (flip y)) *k (p1 *k p2 *k (p3 *k p4))); [ring|] end.
      rewrite !He by assumption. rewrite IH.
      assert (E1 : eps *k eps = k1). { rewrite <- (He x) by assumption. transitivity ((sg x *k sg x) *k (sg (flip x) *k sg (flip x))); [ring|]. rewrite !(sg_sq k1 kmul d flip sg SF) by (try assumption; now apply (flip_lt k1 kmul d flip sg SF)). ring. }
      rewrite E1. ring.
    - match goal with |- sg (flip x) *k ?p1 *k (sg (flip y) *k ?p2) *k (k1 *k ?p3 *k (k1 *k ?p4)) = _ => transitivity (sg (flip x) *k sg (flip y) *k (p1 *k p2 *k (p3 *k p4))); [ring|] end. rewrite IH. ring.
    - match goal with |- k1 *k ?p1 *k (k1 *k ?p2) *k (?u *k ?p3 *k (?v *k ?p4)) = _ => transitivity (u *k v *k (p1 *k p2 *k (p3 *k p4))); [ring|] end. rewrite IH. ring.
    - match goal with |- k1 *k ?p1 *k (k1 *k ?p2) *k (?u *k ?p3 *k (?v *k ?p4)) = _ => transitivity (u *k v *k (p1 *k p2 *k (p3 *k p4))); [ring|] end. rewrite IH. ring. }
  rewrite !(FF n) by auto. rewrite <- (SS n bs cs i a) by auto. ring.
Qed.
End T.
