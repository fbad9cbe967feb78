From Verif Require Import Base BaseLemmas Lattice LatticeSpec Tensor TensorLemmas CtmSpec Net NetSpec NetProofs NetProofs2 UnrollProofs Weights WeightsSpec WeightsProofs.
From Coq Require Import Ring Permutation.
Open Scope list_scope.
Open Scope nat_scope.
Open Scope res_scope.

Section Absorb.
Context {K : Type} (z o : K) (add mul : K -> K -> K).
Hypothesis SR : semi_ring_theory z o add mul eq.
Add Ring Kring : SR.
Variable sq : K -> K.
Hypothesis sq0 : sq z = z.
Notation at_ := (at_ z).
Notation times := (times o mul).

Lemma sum_delta (f : nat -> K) x n i : i < n ->
  sum_list z add (map (fun k => mul (f k) (if i =? k then x i else z)) (seq 0 n)) = mul (f i) (x i).
Proof. intros Hi. assert (X : forall b m, sum_list z add (map (fun k => mul (f k) (if i =? k then x i else z)) (seq b m)) = if (b <=? i) && (i <? b + m) then mul (f i) (x i) else z).
  { intros b m. revert b. induction m as [|m IH]; intros b; cbn [seq map].
    - replace ((b <=? i) && (i <? b + 0)) with false; [reflexivity|]. symmetry. destruct (Nat.leb_spec b i), (Nat.ltb_spec i (b + 0)); try reflexivity; lia.
    - change (sum_list z add (?a :: ?l)) with (add a (sum_list z add l)). rewrite IH.
      destruct (Nat.eqb_spec i b) as [->|N].
      + replace (S b <=? b) with false by (symmetry; apply Nat.leb_gt; lia). rewrite Nat.leb_refl.
        replace (b <? b + S m) with true by (symmetry; apply Nat.ltb_lt; lia). cbn. ring.
      + replace (b + S m) with (S b + m) by lia. destruct (Nat.leb_spec b i), (Nat.leb_spec (S b) i); try lia; cbn [andb]; ring. }
  rewrite X. cbn [Nat.add Nat.leb andb]. apply Nat.ltb_lt in Hi. now rewrite Hi. Qed.

Lemma delta4 (A : nat -> nat -> nat -> nat -> K) x1 x2 x3 x4 n1 n2 n3 n4 a b c d : a < n1 -> b < n2 -> c < n3 -> d < n4 ->
  sum_list z add (map (fun i => sum_list z add (map (fun j => sum_list z add (map (fun k => sum_list z add (map (fun l =>
    mul (A i j k l) (mul (if a =? i then x1 a else z) (mul (if b =? j then x2 b else z) (mul (if c =? k then x3 c else z) (mul (if d =? l then x4 d else z) o)))))
    (seq 0 n4))) (seq 0 n3))) (seq 0 n2))) (seq 0 n1))
  = mul (A a b c d) (mul (x1 a) (mul (x2 b) (mul (x3 c) (x4 d)))).
Proof. intros Ha Hb Hc Hd.
  rewrite (sl_ext z add _ (fun i => mul (mul (A i b c d) (mul (x2 b) (mul (x3 c) (x4 d)))) (if a =? i then x1 a else z))).
  { rewrite (sum_delta (fun i => mul (A i b c d) (mul (x2 b) (mul (x3 c) (x4 d)))) x1 n1 a Ha). ring. }
  intros i _.
  rewrite (sl_ext z add _ (fun j => mul (mul (A i j c d) (mul (if a =? i then x1 a else z) (mul (x3 c) (x4 d)))) (if b =? j then x2 b else z))).
  { rewrite (sum_delta (fun j => mul (A i j c d) (mul (if a =? i then x1 a else z) (mul (x3 c) (x4 d)))) x2 n2 b Hb). ring. }
  intros j _.
  rewrite (sl_ext z add _ (fun k => mul (mul (A i j k d) (mul (if a =? i then x1 a else z) (mul (if b =? j then x2 b else z) (x4 d)))) (if c =? k then x3 c else z))).
  { rewrite (sum_delta (fun k => mul (A i j k d) (mul (if a =? i then x1 a else z) (mul (if b =? j then x2 b else z) (x4 d)))) x3 n3 c Hc). ring. }
  intros k _.
  rewrite (sl_ext z add _ (fun l => mul (mul (A i j k l) (mul (if a =? i then x1 a else z) (mul (if b =? j then x2 b else z) (if c =? k then x3 c else z)))) (if d =? l then x4 d else z))).
  { rewrite (sum_delta (fun l => mul (A i j k l) (mul (if a =? i then x1 a else z) (mul (if b =? j then x2 b else z) (if c =? k then x3 c else z)))) x4 n4 d Hd). ring. }
  intros l _. ring. Qed.

Lemma sqrt_diag n x W : is_diag z n x W -> is_diag z n (fun i => sq (x i)) (tmap sq W).
Proof. intros (HW & HD & HV). split; [now apply twf_tmap|]. split; [exact HD|]. intros i j Hi Hj.
  rewrite tget_tmap, (HV i j Hi Hj). cbn. destruct (i =? j); [reflexivity|now rewrite sq0]. Qed.

Lemma absorb_einsum A p n1 n2 n3 n4 W1 W2 W3 W4 x1 x2 x3 x4 : tdims A = [p; n1; n2; n3; n4] ->
  is_diag z n1 x1 W1 -> is_diag z n2 x2 W2 -> is_diag z n3 x3 W3 -> is_diag z n4 x4 W4 ->
  exists M, einsum z o add mul [(A, [0; 1; 2; 3; 4]); (W1, [5; 1]); (W2, [6; 2]); (W3, [7; 3]); (W4, [8; 4])] [0; 5; 6; 7; 8] = Ok M /\
    twf M /\ tdims M = [p; n1; n2; n3; n4] /\
    forall s a b c d, s < p -> a < n1 -> b < n2 -> c < n3 -> d < n4 ->
      tget M [s; a; b; c; d] = Some (mul (at_ A [s; a; b; c; d]) (mul (x1 a) (mul (x2 b) (mul (x3 c) (x4 d))))).
Proof. intros EA (_ & D1 & V1) (_ & D2 & V2) (_ & D3 & V3) (_ & D4 & V4).
  set (D := fun l => nth l [p; n1; n2; n3; n4; n1; n2; n3; n4] 0).
  set (ops := [(A, [0; 1; 2; 3; 4]); (W1, [5; 1]); (W2, [6; 2]); (W3, [7; 3]); (W4, [8; 4])]).
  destruct (einsum_sum z o add mul SR D ops [0; 5; 6; 7; 8]) as (M & EM & WM & DM & VM).
  { intros op [<-|[<-|[<-|[<-|[<-|[]]]]]]; cbn; assumption. }
  { repeat constructor; cbn; intuition discriminate. }
  { intros l Hl. cbn in *. tauto. }
  exists M. split; [exact EM|]. split; [exact WM|]. split; [exact DM|].
  intros s a b c d Hs Ha Hb Hc Hd.
  set (S := fun l => nth l [s; 0; 0; 0; 0; a; b; c; d] 0).
  change [s; a; b; c; d] with (map S [0; 5; 6; 7; 8]) at 1. rewrite VM.
  2:{ intros l [<-|[<-|[<-|[<-|[<-|[]]]]]]; cbn; assumption. }
  f_equal. change (summed ops [0; 5; 6; 7; 8]) with [1; 2; 3; 4].
  cbn [sum_over]. rewrite <- (delta4 (fun i j k l => at_ A [s; i; j; k; l]) x1 x2 x3 x4 n1 n2 n3 n4 a b c d Ha Hb Hc Hd).
  apply sl_ext; intros i Hi; apply sl_ext; intros j Hj; apply sl_ext; intros k Hk; apply sl_ext; intros l Hl.
  apply in_seq in Hi, Hj, Hk, Hl. change (D 1) with n1 in Hi. change (D 2) with n2 in Hj. change (D 3) with n3 in Hk. change (D 4) with n4 in Hl.
  unfold prodf, ops. cbn [map fst snd nprod fold_right]. unfold upd, S. cbn -[tel]. unfold tel.
  rewrite V1, V2, V3, V4 by lia. unfold WeightsSpec.at_. reflexivity. Qed.

Variables (st : ipeps (tensor K)) (sites : dict coord (tensor K)) (f : coord -> coord) (ws : weights (K := K)).
Hypothesis HS : is_state st sites f.
(** dimension of the bonds, physical dimension, diagonal of the weights *)
Variables (n : coord -> coord -> nat) (p : coord -> nat) (x : coord -> coord -> nat -> K).
Hypothesis HA : forall v, exists A, ipeps_site st v = Ok A /\ tdims A = p v :: map (n v) four.
Hypothesis HW : forall v d, In d four -> exists W, weight st ws (v, d) = Ok W /\ is_diag z (n v d) (x v d) W.

Lemma absorb_site_ok v A : ipeps_site st v = Ok A -> exists M, absorb_site z o add mul sq st ws v = Ok M /\
  twf M /\ tdims M = tdims A /\
  forall ix, in_range (tdims A) ix -> tget M ix = Some (mul (at_ A ix) (times (map (fun di => sq (x v (fst di) (snd di))) (combine four (tl ix))))).
Proof. intros EA. destruct (HA v) as (A' & EA' & DA). rewrite EA in EA'. injection EA' as <-.
  destruct (HW v (0, -1)%Z) as (W1 & E1 & G1); [cbn; tauto|]. destruct (HW v (-1, 0)%Z) as (W2 & E2 & G2); [cbn; tauto|].
  destruct (HW v (0, 1)%Z) as (W3 & E3 & G3); [cbn; tauto|]. destruct (HW v (1, 0)%Z) as (W4 & E4 & G4); [cbn; tauto|].
  apply sqrt_diag in G1, G2, G3, G4.
  destruct (absorb_einsum A _ _ _ _ _ _ _ _ _ _ _ _ _ DA G1 G2 G3 G4) as (M & EM & WM & DM & VM).
  exists M. unfold absorb_site. rewrite EA. cbn [bind dkeys dxy_w_to_ind map fst mapM]. rewrite E1, E2, E3, E4. cbn [bind combine].
  split; [exact EM|]. split; [exact WM|]. split; [now rewrite DM, DA|].
  intros ix R. rewrite DA in R. unfold in_range in R. cbn [four map] in R.
  repeat match goal with R : Forall2 _ _ _ |- _ => inversion R; clear R; subst end.
  rewrite VM by assumption. cbn. f_equal. ring. Qed.

Lemma absorb_ok : exists st', absorb_weights z o add mul sq st ws = Ok st' /\
  i_lX st' = i_lX st /\ i_lY st' = i_lY st /\ (forall v, i_v2s st' v = i_v2s st v) /\
  forall v A, ipeps_site st v = Ok A -> exists M, ipeps_site st' v = Ok M /\ twf M /\ tdims M = tdims A /\
    forall ix, in_range (tdims A) ix -> tget M ix = Some (mul (at_ A ix) (times (map (fun di => sq (x v (fst di) (snd di))) (combine four (tl ix))))).
Proof. destruct HS as (S1 & S2 & SN & ST & SF & SC). unfold absorb_weights. rewrite S1.
  assert (X : forall l d, NoDup l -> (forall k, In k l -> In k (dkeys sites)) -> exists d',
     foldM (fun d c => t <- absorb_site z o add mul sq st ws c ;; Ok (dset d c t)) l d = Ok d' /\
     (forall k, ~ In k l -> dget d' k = dget d k) /\
     forall k, In k l -> exists M, dget d' k = Some M /\ absorb_site z o add mul sq st ws k = Ok M).
  { induction l as [|c l IH]; intros d N Hl.
    - exists d. split; [reflexivity|]. split; [auto|intros ? []].
    - destruct (HA c) as (A & EA & _). destruct (absorb_site_ok c A EA) as (M & EM & _).
      inversion N; subst. destruct (IH (dset d c M)) as (d' & E & F1 & F2); [assumption|intros k Hk; apply Hl; now right|].
      exists d'. cbn [foldM]. rewrite EM. cbn [bind]. split; [exact E|]. split.
      + intros k Hk. rewrite F1 by (intros X; apply Hk; now right). rewrite dget_dset. destruct (eq_dec k c) as [->|]; [exfalso; apply Hk; now left|reflexivity].
      + intros k [<-|Hk]; [|now apply F2]. exists M. split; [|exact EM]. rewrite F1 by assumption. rewrite dget_dset.
        destruct (eq_dec c c); congruence. }
  destruct (X (dkeys sites) [] SN (fun k H => H)) as (d' & E & _ & F2). rewrite E. cbn [bind].
  eexists. split; [reflexivity|]. cbn. repeat split; auto.
  intros v A EA. destruct (F2 (f v) (ST v)) as (M & G1 & G2).
  assert (Same : absorb_site z o add mul sq st ws (f v) = absorb_site z o add mul sq st ws v).
  { unfold absorb_site. assert (EQ : ipeps_site st (f v) = ipeps_site st v).
    { unfold ipeps_site. rewrite S1, !S2. cbn. now rewrite (SF (f v) (ST v)). }
    rewrite EQ. destruct (ipeps_site st v); [|reflexivity]. cbn [bind].
    assert (EQw : forall d, weight st ws (f v, d) = weight st ws (v, d)).
    { intros d. unfold weight. rewrite !S2. cbn. now rewrite (SF (f v) (ST v)). }
    cbn [dkeys dxy_w_to_ind map fst mapM]. now rewrite !EQw. }
  destruct (absorb_site_ok v A EA) as (M' & EM & R). rewrite Same, EM in G2. injection G2 as ->.
  exists M. split; [|exact R]. unfold ipeps_site. cbn. rewrite S2. cbn. unfold dget_exn. now rewrite G1. Qed.
End Absorb.
