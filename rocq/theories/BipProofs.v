(** The rotated expectation value of local operators. *)
From Coq Require Import Lia Ring Permutation.
From Verif Require Import Base BaseLemmas Tensor TensorLemmas Plaq PlaqSpec PlaqProofs PlaqProofs2 PlaqProofs6 Bip BipSpec.
Open Scope list_scope.
Open Scope Z_scope.

Section Rot.
Context {K : Type} (k0 k1 : K) (kadd kmul ksub : K -> K -> K) (kopp : K -> K).
Hypothesis Kr : ring_theory k0 k1 kadd kmul ksub kopp (@eq K).
Add Ring KringB : Kr.
Notation "a +k b" := (kadd a b) (at level 50, left associativity).
Notation "a *k b" := (kmul a b) (at level 40, left associativity).
Variables (L M : Z) (d : nat).
Hypotheses (HL : 2 <= L) (HM : 2 <= M) (EL : Z.even L = true) (EM : Z.even M = true).
Notation sites := (sites L M).
Notation wrap := (wrap L M).
Notation on := (on k0 L M).
Notation prod l := (fold_right kmul k1 l).
Variables (flip : nat -> nat) (sg : nat -> K).
Hypothesis SF : signed_flip k1 kmul d flip sg.
Notation flipped := (flipped flip).
Notation sign := (sign k1 kmul L M flip sg).
Notation flips := (flips flip).
Notation signs := (signs k1 kmul flip sg).
Notation turned := (turned k1 kmul flip sg).

Lemma flip_lt i : (i < d)%nat -> (flip i < d)%nat. Proof. intros H. apply (proj1 SF i H). Qed.
Lemma flip_flip i : (i < d)%nat -> flip (flip i) = i. Proof. intros H. apply (proj1 SF i H). Qed.
Lemma sg_sq i : (i < d)%nat -> sg i *k sg i = k1. Proof. intros H. apply (proj1 SF i H). Qed.
Lemma flip_inj i j : (i < d)%nat -> (j < d)%nat -> flip i = flip j -> i = j.
Proof. intros Hi Hj E. rewrite <- (flip_flip i Hi), <- (flip_flip j Hj). now rewrite E. Qed.
Lemma flipped_valid s : valid d s -> valid d (flipped s).
Proof. intros H p. unfold BipSpec.flipped. destruct (odd p); [apply flip_lt|]; apply H. Qed.

Lemma prod_map_mul {I} (l : list I) f g : prod (map (fun i => f i *k g i) l) = prod (map f l) *k prod (map g l).
Proof. induction l as [|x l IH]; cbn; [ring|]. rewrite IH. ring. Qed.
Lemma prod_filter {I} (l : list I) (b : I -> bool) f : prod (map f (filter b l)) = prod (map (fun i => if b i then f i else k1) l).
Proof. induction l as [|x l IH]; cbn; [reflexivity|]. destruct (b x); cbn; rewrite IH; ring. Qed.
Lemma prod_perm l l' : Permutation l l' -> prod l = prod l'.
Proof. induction 1; cbn; try congruence; ring. Qed.
Lemma prod_sub (l m : list coord) g : NoDup l -> NoDup m -> incl m l -> (forall p, In p l -> ~ In p m -> g p = k1) -> prod (map g l) = prod (map g m).
Proof.
  intros Nl Nm Hi Hg.
  set (b := fun p => existsb (eqb p) m). assert (Hb : forall p, b p = true <-> In p m).
  { intros p. unfold b. rewrite existsb_exists. split; [intros (q & Hq & E); apply (proj1 (eqb_true _ _)) in E; now subst|]. intros H. exists p. split; [exact H|]. now apply eqb_true. }
  assert (E : prod (map g l) = prod (map (fun i => if b i then g i else k1) l)).
  { f_equal. apply map_ext_in. intros p Hp. destruct (b p) eqn:B; [reflexivity|]. apply Hg; [exact Hp|]. intros H. apply Hb in H. congruence. }
  rewrite E, <- prod_filter. apply prod_perm, Permutation_map, NoDup_Permutation; [now apply NoDup_filter | exact Nm|].
  intros p. rewrite filter_In, Hb. split; [tauto|]. auto.
Qed.
Lemma sites_nodup : NoDup sites.
Proof.
  assert (H : forall (l l' : list Z), NoDup l -> NoDup l' -> NoDup (list_prod l l')).
  { induction l as [|x l IH]; intros l' H1 H2; [constructor|]. cbn [list_prod]. inversion H1; subst. apply NoDup_app_intro; [|auto|].
    - apply NoDup_map_inj; [|assumption]. intros a b _ _ Q. now injection Q.
    - intros [a b] Ha Hb. apply in_map_iff in Ha. destruct Ha as (y & Q & _). injection Q as <- <-. apply in_prod_iff in Hb. tauto. }
  apply H; apply NoDup_zrange.
Qed.

Definition marks (ps : list coord) : list bool := map (fun p => odd (wrap p)) ps.
Lemma flips_at s ps : map (fun p => flipped s (wrap p)) ps = flips (marks ps) (map (fun p => s (wrap p)) ps).
Proof. induction ps as [|p ps IH]; [reflexivity|]. cbn [map marks BipSpec.flips combine]. f_equal. exact IH. Qed.
Lemma signs_at s ps : signs (marks ps) (map (fun p => s (wrap p)) ps) = prod (map (fun p => if odd p then sg (flip (s p)) else k1) (map wrap ps)).
Proof. induction ps as [|p ps IH]; [reflexivity|]. unfold BipSpec.signs, marks in *. cbn [map combine fold_right fst snd]. now rewrite IH. Qed.
Lemma conj_on ps (O : local) s s' : NoDup (map wrap ps) -> valid d s -> valid d s' ->
  sign s *k sign s' *k on ps O (flipped s) (flipped s') = on ps (turned (marks ps) O) s s'.
Proof.
  intros ND Hs Hs'. unfold PlaqSpec.on.
  assert (A : agree_off L M (map wrap ps) (flipped s) (flipped s') = agree_off L M (map wrap ps) s s').
  { apply Bool.eq_true_iff_eq. rewrite !(agree_off_spec L M). split; intros H p Hp Hn; specialize (H p Hp Hn); unfold BipSpec.flipped in *; destruct (odd p); auto.
    now apply flip_inj. }
  rewrite A. destruct (agree_off L M (map wrap ps) s s') eqn:Ag; [|ring]. rewrite (agree_off_spec L M) in Ag.
  unfold BipSpec.turned. rewrite !flips_at, !signs_at. f_equal. unfold BipSpec.sign. rewrite !prod_filter, <- !prod_map_mul.
  apply (prod_sub sites (map wrap ps)); [apply sites_nodup | exact ND| |].
  - intros p Hp. apply in_map_iff in Hp. destruct Hp as (q & <- & _). now apply wrap_sites.
  - intros p Hp Hn. rewrite (Ag p Hp Hn). destruct (odd p); [|ring]. apply sg_sq, flip_lt, Hs'.
Qed.

Lemma odd_wrap p : odd (wrap p) = odd p.
Proof.
  unfold odd, PlaqSpec.wrap. cbn [fst snd]. rewrite !Z.odd_add. f_equal.
  - rewrite (Z.div_mod (fst p) L) at 2 by lia. rewrite Z.odd_add, Z.odd_mul. rewrite <- (Z.negb_even L), EL. cbn. now destruct (Z.odd (fst p mod L)).
  - rewrite (Z.div_mod (snd p) M) at 2 by lia. rewrite Z.odd_add, Z.odd_mul. rewrite <- (Z.negb_even M), EM. cbn. now destruct (Z.odd (snd p mod M)).
Qed.
Lemma marks_eq ps : marks ps = map odd ps.
Proof. apply map_ext. exact odd_wrap. Qed.

Variable E : @operator K -> K.
Hypothesis HE : expectation kadd kmul d E.
Notation rotated := (rotated k1 kmul L M flip sg E).
Lemma rotated_expectation : expectation kadd kmul d rotated.
Proof.
  destruct HE as (H1 & H2 & H3). split; [|split].
  - intros A B HAB. apply H1. intros s s' Hs Hs'. rewrite (HAB _ _ (flipped_valid s Hs) (flipped_valid s' Hs')). reflexivity.
  - intros A B. unfold BipSpec.rotated. rewrite <- H2. apply H1. intros s s' Hs Hs'. unfold oadd. ring.
  - intros c A. unfold BipSpec.rotated. rewrite <- H3. apply H1. intros s s' Hs Hs'. unfold oscale. ring.
Qed.
Lemma rotated_on ps (O : local) : NoDup (map wrap ps) -> rotated (on ps O) = E (on ps (turned (map odd ps) O)).
Proof. intros ND. apply (proj1 HE). intros s s' Hs Hs'. rewrite <- marks_eq. now apply conj_on. Qed.
Lemma E_ext ps (O O' : local) : (forall i a, within d (length ps) i -> within d (length ps) a -> O i a = O' i a) -> E (on ps O) = E (on ps O').
Proof.
  intros H. apply (proj1 HE). intros s s' Hs Hs'. unfold PlaqSpec.on. destruct agree_off; [|reflexivity].
  apply H; (split; [apply map_length|]; apply Forall_forall; intros x Hx; apply in_map_iff in Hx; destruct Hx as (q & <- & _)); [apply Hs | apply Hs'].
Qed.
End Rot.
