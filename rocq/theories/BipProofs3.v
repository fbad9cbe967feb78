(** Energies of the rotated state from a single plaquette. *)
From Coq Require Import Lia Ring Permutation.
From Verif Require Import Base BaseLemmas Tensor TensorLemmas Plaq PlaqSpec PlaqProofs PlaqProofs2 PlaqProofs3 PlaqProofs6 Bip BipSpec BipProofs BipProofs2.
Open Scope list_scope.
Open Scope Z_scope.

Section Sums.
Context {K : Type} (k0 k1 : K) (kadd kmul ksub : K -> K -> K) (kopp : K -> K).
Hypothesis Kr : ring_theory k0 k1 kadd kmul ksub kopp (@eq K).
Add Ring KringB3 : Kr.
Notation "a +k b" := (kadd a b) (at level 50, left associativity).
Notation "a -k b" := (ksub a b) (at level 50, left associativity).
Notation "a *k b" := (kmul a b) (at level 40, left associativity).
Notation sum l := (fold_right kadd k0 l).
Notation ofnat := (ofnat k0 k1 kadd).
Variables (L M : Z) (d : nat).
Hypotheses (HL : 2 <= L) (HM : 2 <= M) (EL : Z.even L = true) (EM : Z.even M = true).
Notation sites := (sites L M).
Notation wrap := (wrap L M).
Notation on := (on k0 L M).
Notation N := (ofnat (length sites)).
Variables (flip : nat -> nat) (sg : nat -> K).
Hypothesis SF : signed_flip k1 kmul d flip sg.
Notation turned := (turned k1 kmul flip sg).
Variable E : @operator K -> K.
Hypothesis HE : expectation kadd kmul d E.
Hypothesis HH : homogeneous k0 L M E.
Variable half : K.
Hypothesis Hh : half +k half = k1.
Notation rotated := (rotated k1 kmul L M flip sg E).
Notation loc2 := (loc2 k0).
Notation loc1 := (loc1 k0).
Notation loc4 := (loc4 k0).
Notation o := (0, 0).

Lemma homog p ps O : E (on (map (cadd p) ps) O) = E (on ps O).
Proof.
  rewrite <- (HH (wrap p) ps O (wrap_sites L M HL HM p)). apply (proj1 HE). intros s s' _ _. apply on_wrap. rewrite !map_map. apply map_ext. intros v. symmetry. apply wrap_add.
Qed.
Lemma wrap_sub p v w : wrap (cadd p v) = wrap (cadd p w) -> wrap v = wrap w.
Proof.
  intros H. apply (wrap_eq_add L M _ _ (cneg p)) in H. replace (cadd (cadd p v) (cneg p)) with v in H; [replace (cadd (cadd p w) (cneg p)) with w in H; [exact H|]|];
  unfold cadd, cneg; cbn; [destruct w as [a b] | destruct v as [a b]]; cbn; f_equal; lia.
Qed.
Lemma nd p vs : NoDup (map wrap vs) -> NoDup (map wrap (map (cadd p) vs)).
Proof.
  induction vs as [|v vs IH]; intros H; [constructor|]. cbn [map] in *. apply NoDup_cons_iff in H. destruct H as [H1 H2]. constructor; [|now apply IH].
  intros Hin. apply H1. apply in_map_iff in Hin. destruct Hin as (q & Q & Hq). apply in_map_iff in Hq. destruct Hq as (w & <- & Hw). apply wrap_sub in Q. rewrite <- Q. now apply in_map.
Qed.
Lemma odd_cadd p v : odd (cadd p v) = xorb (odd p) (odd v).
Proof. unfold odd, cadd. cbn [fst snd]. replace (fst p + fst v + (snd p + snd v)) with ((fst p + snd p) + (fst v + snd v)) by lia. apply Z.odd_add. Qed.
Lemma rot_at p vs (O : local) : NoDup (map wrap vs) -> rotated (on (map (cadd p) vs) O) = E (on vs (turned (map (fun v => xorb (odd p) (odd v)) vs) O)).
Proof.
  intros ND. rewrite (rotated_on k0 k1 kadd kmul ksub kopp Kr L M d HL HM EL EM flip sg SF E HE) by (now apply nd). rewrite homog, map_map. do 3 f_equal. apply map_ext. intros v. apply odd_cadd.
Qed.
Lemma turned_none n (O : local) i a : within d n i -> within d n a -> turned (repeat false n) O i a = O i a.
Proof.
  intros [Li _] [La _]. unfold BipSpec.turned.
  assert (Q1 : forall n i, length i = n -> flips flip (repeat false n) i = i). { induction n0 as [|m IH]; intros [|x l] Hl; try discriminate; [reflexivity|]. unfold flips in *. cbn [repeat combine map fst snd]. f_equal. apply IH. now injection Hl. }
  assert (Q2 : forall n i, length i = n -> signs k1 kmul flip sg (repeat false n) i = k1). { induction n0 as [|m IH]; intros [|x l] Hl; try discriminate; [reflexivity|]. unfold signs in *. cbn [repeat combine map fst snd fold_right]. rewrite IH by (now injection Hl). ring. }
  rewrite !Q1, !Q2 by assumption. ring.
Qed.
Lemma sum_const {I} (l : list I) c : sum (map (fun _ => c) l) = ofnat (length l) *k c.
Proof. induction l as [|x l IH]; cbn; [ring|]. rewrite IH. ring. Qed.
Lemma halves x : x = half *k (x +k x).
Proof. transitivity ((half +k half) *k x); [rewrite Hh; ring | ring]. Qed.
Lemma odd_px p : odd (px p) = negb (odd p).
Proof. unfold odd, px. cbn [fst snd]. replace (fst p + 1 + snd p) with (Z.succ (fst p + snd p)) by lia. now rewrite Z.odd_succ, <- Z.negb_odd. Qed.
Lemma sublattices (f : coord -> K) a b : (forall p, f p = if odd p then a else b) -> sum (map f sites) = N *k (half *k (a +k b)).
Proof.
  intros Hf. assert (P : per L M f).
  { intros x y. rewrite !Hf. unfold odd. cbn [fst snd]. rewrite !Z.odd_add, <- !Z.negb_even, !(even_mod _ _ EL), !(even_mod _ _ EM). auto. }
  rewrite (halves (sum (map f sites))). rewrite <- (sum_px k0 k1 kadd kmul ksub kopp Kr L M HL f P) at 2. rewrite <- (sum_map_add k0 k1 kadd kmul ksub kopp Kr).
  rewrite (sum_map_ext k0 kadd sites _ (fun _ => a +k b)); [rewrite sum_const; ring|]. intros p _. rewrite !Hf, odd_px. destruct (odd p); cbn [negb]; ring.
Qed.
(** sums of rotated values *)
Lemma sum_at vs (O : local) : NoDup (map wrap vs) -> sum (map (fun p => rotated (on (map (cadd p) vs) O)) sites) =
  N *k (half *k (E (on vs (turned (map (fun v => negb (odd v)) vs) O)) +k E (on vs (turned (map odd vs) O)))).
Proof.
  intros ND. apply sublattices. intros p. rewrite rot_at by exact ND. destruct (odd p); f_equal; f_equal; f_equal; apply map_ext; intros v; destruct (odd v); reflexivity.
Qed.
Lemma sum_inv vs (O : local) : NoDup (map wrap vs) -> rotation_invariant k1 kmul d flip sg (length vs) O ->
  sum (map (fun p => rotated (on (map (cadd p) vs) O)) sites) = N *k E (on vs (turned (map odd vs) O)).
Proof.
  intros ND HO. rewrite sum_at by exact ND. f_equal. rewrite (E_ext k0 kadd kmul L M d E HE vs (turned (map (fun v => negb (odd v)) vs) O) (turned (map odd vs) O)); [symmetry; apply halves|].
  intros i a Hi Ha. transitivity (turned (map odd vs) (turned (repeat true (length vs)) O) i a).
  - rewrite (turned_twice k0 k1 kadd kmul ksub kopp Kr d flip sg SF _ _ O (length vs)) by (auto using map_length, repeat_length).
    assert (Q : forall l : list coord, map (fun bc : bool * bool => xorb (fst bc) (snd bc)) (combine (map odd l) (repeat true (length l))) = map (fun v => negb (odd v)) l).
    { induction l as [|x l IH]; [reflexivity|]. cbn [map length repeat combine fst snd]. rewrite IH. destruct (odd x); reflexivity. }
    now rewrite Q.
  - unfold BipSpec.turned at 1 3. f_equal. apply HO; (split; [unfold flips; rewrite map_length, combine_length, map_length; destruct Hi, Ha; lia|]).
    + apply Forall_forall. intros x Hx. unfold flips in Hx. apply in_map_iff in Hx. destruct Hx as ((b & y) & <- & Hin). apply in_combine_r in Hin. destruct Hi as [_ Fi]. rewrite Forall_forall in Fi. cbn. destruct b; [apply (flip_lt k1 kmul d flip sg SF)|]; auto.
    + apply Forall_forall. intros x Hx. unfold flips in Hx. apply in_map_iff in Hx. destruct Hx as ((b & y) & <- & Hin). apply in_combine_r in Hin. destruct Ha as [_ Fa]. rewrite Forall_forall in Fa. cbn. destruct b; [apply (flip_lt k1 kmul d flip sg SF)|]; auto.
Qed.
Lemma none_at (vs : list coord) (O : local) : E (on vs (turned (repeat false (length vs)) O)) = E (on vs O).
Proof. apply (E_ext k0 kadd kmul L M d E HE). intros i a Hi Ha. now apply turned_none. Qed.
End Sums.
