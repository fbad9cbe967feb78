(** The ring exchange of the chiral term. *)
From Coq Require Import Lia Ring Permutation.
From Verif Require Import Base BaseLemmas Tensor TensorLemmas Plaq PlaqSpec PlaqProofs PlaqProofs2.
Open Scope list_scope.
Open Scope nat_scope.
Open Scope res_scope.

Section Ring4.
Context {K : Type} (k0 k1 : K) (kadd kmul ksub : K -> K -> K) (kopp : K -> K).
Hypothesis Kr : ring_theory k0 k1 kadd kmul ksub kopp (@eq K).
Add Ring Kring9 : Kr.
Variable d : nat.
Notation good := (good d).
Notation ok4 := (ok4 d).
Notation loc4 := (loc4 k0).
Notation sum l := (fold_right kadd k0 l).
Notation delta := (delta k0 k1).
Definition map4 (A : tensor K) (f : list nat -> list nat) : Prop :=
  good A /\ (forall i, ok4 i -> ok4 (f i)) /\ forall i x, ok4 i -> ok4 x -> loc4 A i x = delta (eqb x (f i)).
Lemma sum_delta (l : list (list nat)) x (g : list nat -> K) : NoDup l -> In x l -> sum (map (fun m => kmul (delta (eqb m x)) (g m)) l) = g x.
Proof.
  induction l as [|m l IH]; intros Hn Hi; [destruct Hi|]. inversion Hn as [|? ? Hm Hn']; subst. cbn [map fold_right].
  destruct (eqb m x) eqn:Em.
  - apply (eqb_true (A:=list nat)) in Em. subst m. rewrite (sum_zero k0 k1 kadd kmul ksub kopp Kr); [cbn; ring|]. intros y Hy. destruct (eqb y x) eqn:Ey; [apply (eqb_true (A:=list nat)) in Ey; subst y; contradiction|]. cbn. ring.
  - destruct Hi as [-> |Hi]; [rewrite (proj2 (eqb_true (A:=list nat) x x) eq_refl) in Em; discriminate|]. rewrite IH by assumption. cbn. ring.
Qed.
Lemma ok4_range i : ok4 i <-> in_range [d; d; d; d] i.
Proof.
  split.
  - intros H. apply ok4_inv in H. destruct H as (a & b & c & e & -> & ? & ? & ? & ?). repeat (apply Forall2_cons; [assumption|]). constructor.
  - intros H. inversion H as [|? a ? ? Ha H1]; subst. inversion H1 as [|? b ? ? Hb H2]; subst. inversion H2 as [|? c ? ? Hc H3]; subst. inversion H3 as [|? e ? ? He H4]; subst. inversion H4; subst.
    split; [reflexivity|]. repeat (apply Forall_cons; [assumption|]). constructor.
Qed.
Lemma map4_dot A B f g : map4 A f -> map4 B g -> map4 (tdot4 k0 kadd kmul d A B) (fun i => g (f i)).
Proof.
  intros (GA & Of & HA) (GB & Og & HB). split; [apply good_build|]. split; [auto|]. intros i x Hi Hx.
  unfold tdot4. rewrite loc4_el, el_build by (now apply range8).
  assert (Fi : firstn 4 (i ++ x) = i /\ skipn 4 (i ++ x) = x).
  { apply ok4_inv in Hi. destruct Hi as (a & b & c & e & -> & _). split; reflexivity. }
  destruct Fi as [-> ->].
  rewrite <- (sum_delta (indices [d; d; d; d]) (f i) (fun m => delta (eqb x (g m)))).
  - apply (sum_map_ext k0 kadd). intros m Hm. apply In_indices in Hm. change (in_range [d; d; d; d] m) in Hm. apply ok4_range in Hm.
    change (Plaq.el k0 A (i ++ m)) with (loc4 A i m). change (Plaq.el k0 B (m ++ x)) with (loc4 B m x). now rewrite HA, HB by assumption.
  - apply NoDup_indices.
  - apply In_indices. apply ok4_range. auto.
Qed.
Lemma map4_build f F p : is_permb p 8 = true -> (forall i, ok4 i -> ok4 (f i)) ->
  (forall i x, ok4 i -> ok4 x -> F (unperm p (i ++ x)) = delta (eqb x (f i))) -> exists t, perm k0 (tbuild (D8 d) F) p = Ok t /\ map4 t f.
Proof. intros Hp Ho H. destruct (perm_build k0 d F p Hp) as (t & Et & G & Ht). exists t. split; [exact Et|]. split; [exact G|]. split; [exact Ho|]. intros i x Hi Hx. rewrite Ht by assumption. now apply H. Qed.
Lemma el_P12 i j a b : i < d -> j < d -> a < d -> b < d -> Plaq.el k0 (P12 k0 k1 d) [i; j; a; b] = delta (Nat.eqb i b && Nat.eqb j a).
Proof. intros. unfold Plaq.el, P12. rewrite tget_tbuild; [reflexivity|]. repeat (apply Forall2_cons; [assumption|]). constructor. Qed.
Lemma eqb_list4 a b c e a' b' c' e' : eqb [a; b; c; e] [a'; b'; c'; e'] = Nat.eqb a a' && Nat.eqb b b' && Nat.eqb c c' && Nat.eqb e e'.
Proof. apply Bool.eq_true_iff_eq. rewrite !andb_true_iff, !Nat.eqb_eq, eqb_true. split; [intros H; injection H; auto | intros [[[-> ->] ->] ->]; reflexivity]. Qed.
Definition sw01 (i : list nat) := match i with [a; b; c; e] => [b; a; c; e] | _ => i end.
Definition sw12 (i : list nat) := match i with [a; b; c; e] => [a; c; b; e] | _ => i end.
Definition sw23 (i : list nat) := match i with [a; b; c; e] => [a; b; e; c] | _ => i end.
Ltac okt := let j := fresh in let Hj := fresh in intros j Hj; apply ok4_inv in Hj; destruct Hj as (a & b & c & e & -> & ? & ? & ? & ?); split; [reflexivity|]; repeat (apply Forall_cons; [assumption|]); constructor.
Ltac swt := intros i x Hi Hx; apply ok4_inv in Hi, Hx; destruct Hi as (i0 & i1 & i2 & i3 & -> & ? & ? & ? & ?), Hx as (x0 & x1 & x2 & x3 & -> & ? & ? & ? & ?);
  cbn -[Plaq.el id_n P12 PlaqSpec.delta eqb]; rewrite el_P12, el_id2 by assumption; rewrite eqb_list4; unfold PlaqSpec.delta;
  repeat match goal with |- context [Nat.eqb ?a ?b] => destruct (Nat.eqb_spec a b) end; cbn; subst; try congruence; try ring.
Lemma map4_01 : map4 (two_two k0 kmul d (P12 k0 k1 d) (id_n k0 k1 d 2)) sw01.
Proof. split; [apply good_build|]. split; [okt|]. intros i x Hi Hx. unfold two_two. rewrite loc4_el, el_build by (now apply range8). revert i x Hi Hx. swt. Qed.
Lemma map4_12 : exists t, perm k0 (two_two k0 kmul d (P12 k0 k1 d) (id_n k0 k1 d 2)) [3; 0; 1; 2; 7; 4; 5; 6] = Ok t /\ map4 t sw12.
Proof. apply map4_build; [reflexivity | okt | swt]. Qed.
Lemma map4_23 : exists t, perm k0 (two_two k0 kmul d (P12 k0 k1 d) (id_n k0 k1 d 2)) [2; 3; 0; 1; 6; 7; 4; 5] = Ok t /\ map4 t sw23.
Proof. apply map4_build; [reflexivity | okt | swt]. Qed.
Theorem ring_exchange_spec : exists t, ring_exchange k0 k1 kadd kmul ksub d = Ok t /\ good t /\
  forall i x, ok4 i -> ok4 x -> loc4 t i x = ksub (delta (eqb x (turn i))) (delta (eqb i (turn x))).
Proof.
  unfold ring_exchange. destruct map4_12 as (t1 & -> & M1). cbn [bind]. destruct map4_23 as (t2 & -> & M2). cbn [bind].
  set (P4 := tdot4 k0 kadd kmul d t2 _). assert (M4 : map4 P4 (fun i => sw01 (sw12 (sw23 i)))).
  { apply (map4_dot _ _ sw23 (fun i => sw01 (sw12 i)) M2). exact (map4_dot _ _ sw12 sw01 M1 map4_01). }
  destruct M4 as (G4 & _ & H4). assert (GT : good (transp k0 d P4)) by apply good_build.
  destruct (perm_ok k0 d (tsub ksub P4 (transp k0 d P4)) [0; 1; 3; 2; 4; 5; 7; 6] (good_tzip d ksub _ _ G4 GT) eq_refl) as (t & -> & G & Ht).
  exists t. split; [reflexivity|]. split; [exact G|]. intros i x Hi Hx. rewrite loc4_el, Ht by (now apply range8).
  assert (Fo : forall i, ok4 i -> ok4 (sw23 i)) by okt.
  assert (U : unperm [0; 1; 3; 2; 4; 5; 7; 6] (i ++ x) = sw23 i ++ sw23 x).
  { apply ok4_inv in Hi, Hx. destruct Hi as (i0 & i1 & i2 & i3 & -> & _), Hx as (x0 & x1 & x2 & x3 & -> & _). reflexivity. }
  rewrite U. change (Plaq.el k0 (tsub ksub P4 (transp k0 d P4)) (sw23 i ++ sw23 x)) with (loc4 (tsub ksub P4 (transp k0 d P4)) (sw23 i) (sw23 x)).
  rewrite (loc4_sub k0 ksub d) by auto. rewrite H4 by auto.
  assert (T : loc4 (transp k0 d P4) (sw23 i) (sw23 x) = loc4 P4 (sw23 x) (sw23 i)).
  { unfold transp. rewrite loc4_el, el_build by (apply range8; auto). apply ok4_inv in Hi, Hx. destruct Hi as (i0 & i1 & i2 & i3 & -> & _), Hx as (x0 & x1 & x2 & x3 & -> & _). reflexivity. }
  rewrite T, H4 by auto. apply ok4_inv in Hi, Hx. destruct Hi as (i0 & i1 & i2 & i3 & -> & _), Hx as (x0 & x1 & x2 & x3 & -> & _).
  cbn [sw01 sw12 sw23 turn]. rewrite !eqb_list4. f_equal; f_equal; repeat match goal with |- context [Nat.eqb ?a ?b] => destruct (Nat.eqb a b) end; reflexivity.
Qed.
End Ring4.
