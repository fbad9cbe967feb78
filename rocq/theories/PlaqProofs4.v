(** Plaquette operators of the other models, and energies from reduced density matrices. *)
From Coq Require Import Lia Ring Permutation.
From Verif Require Import Base BaseLemmas Tensor TensorLemmas Plaq PlaqSpec PlaqProofs PlaqProofs2 PlaqProofs3.
Open Scope list_scope.
Open Scope Z_scope.

Section Others.
Context {K : Type} (k0 k1 : K) (kadd kmul ksub : K -> K -> K) (kopp : K -> K).
Hypothesis Kr : ring_theory k0 k1 kadd kmul ksub kopp (@eq K).
Add Ring Kring5 : Kr.
Notation "a +k b" := (kadd a b) (at level 50, left associativity).
Notation "a -k b" := (ksub a b) (at level 50, left associativity).
Notation "a *k b" := (kmul a b) (at level 40, left associativity).
Notation sum l := (fold_right kadd k0 l).
Variables (L M : Z) (d : nat).
Hypotheses (HL : 2 <= L) (HM : 2 <= M).
Notation sites := (sites L M).
Notation on := (on k0 L M).
Notation W := (W k0 L M).
Notation B2 := (B2 k0 L M).
Notation B1 := (B1 k0 L M).
Notation Q4 := (Q4 k0 kmul L M).
Ltac goodt := repeat first [assumption | apply good_build | apply good_tzip | apply good_tscl].
Ltac ustac := let u := fresh in let H := fresh in intros u H; cbn in H; repeat (destruct H as [<- |H]; [lia|]); destruct H.
Ltac pair A p us t E G H := destruct (emb_pair k0 k1 kadd kmul ksub kopp Kr d A p us ltac:(unfold pair_perm; cbn; tauto)) as (t & E & G & H).
Ltac site A p us t E G H := destruct (emb_site k0 k1 kadd kmul ksub kopp Kr d A p us ltac:(unfold site_perm; cbn; tauto)) as (t & E & G & H).
Ltac quad A p us t E G H := destruct (emb_quad k0 kmul d A p us ltac:(unfold quad_perm; cbn; tauto)) as (t & E & G & H).
Ltac lin Hs Hs' := repeat first
  [ rewrite (W_add k0 k1 kadd kmul ksub kopp Kr L M d) by (solve [exact Hs | exact Hs' | goodt])
  | rewrite (W_sub k0 k1 kadd kmul ksub kopp Kr L M d) by (solve [exact Hs | exact Hs' | goodt])
  | rewrite (W_scl k0 k1 kadd kmul ksub kopp Kr L M d) by (solve [exact Hs | exact Hs' | goodt])].
Ltac embs Hs Hs' := repeat match goal with H : emb k0 d ?us _ ?t |- context [W _ _ ?p ?t] => rewrite (W_emb k0 L M d HL HM _ _ Hs Hs' p us _ t ltac:(ustac) H) end.

Notation Sx := (Sx k0 kadd L M).
Notation Sy := (Sy k0 kadd L M).
Notation S1 := (S1 k0 kadd L M).
Notation sums := (sum_map_add k0 k1 kadd kmul ksub kopp Kr).
Notation scales := (sum_map_scale k0 k1 kadd kmul ksub kopp Kr).

Lemma hp_ising q hx A X Id : (forall i a, (i < d)%nat -> (a < d)%nat -> Plaq.el k0 Id [i; a] = if Nat.eqb i a then k1 else k0) ->
  exists t, ising_hp k0 k1 kmul ksub kopp d q hx A X Id = Ok t /\ good d t /\
  forall p s s', valid d s -> valid d s' -> W s s' p t =
    kopp (B2 s s' A p (px p)) -k B2 s s' A p (py p) -k q *k Q4 s s' A p (px p) (py p) (pxy p) -k hx *k B1 s s' X p.
Proof.
  intros HI. unfold ising_hp.
  pair A [0; 2; 1; 3; 4; 6; 5; 7]%nat [0; 2]%nat t1 E1 G1 H1. rewrite E1. cbn [bind].
  eexists. split; [reflexivity|].
  pose proof (emb_pair0 k0 k1 kadd kmul ksub kopp Kr d A) as HA. pose proof (emb_quad0 k0 kmul d A) as HQ. pose proof (emb_four k0 k1 kadd kmul ksub kopp Kr d X Id HI) as HX.
  assert (GA : good d (two_two k0 kmul d A (id_n k0 k1 d 2))) by apply good_build.
  assert (GQ : good d (two_two k0 kmul d A A)) by apply good_build.
  assert (GX : good d (four_ones k0 kmul d X Id Id Id)) by apply good_build.
  set (a := two_two k0 kmul d A (id_n k0 k1 d 2)) in *. set (b := two_two k0 kmul d A A) in *. set (x := four_ones k0 kmul d X Id Id Id) in *.
  split; [goodt|]. intros p s s' Hs Hs'. lin Hs Hs'. embs Hs Hs'.
  change (pick (0, 0) [0; 1]%nat (plaquette p)) with [p; px p]. change (pick (0, 0) [0; 2]%nat (plaquette p)) with [p; py p].
  change (pick (0, 0) [0]%nat (plaquette p)) with [p]. change (pick (0, 0) [0; 1; 2; 3]%nat (plaquette p)) with [p; px p; py p; pxy p].
  fold (B2 s s' A p (px p)). fold (B2 s s' A p (py p)). fold (B1 s s' X p). fold (Q4 s s' A p (px p) (py p) (pxy p)). ring.
Qed.
Theorem ising_operator q hx A X Id hp : (forall i a, (i < d)%nat -> (a < d)%nat -> Plaq.el k0 Id [i; a] = if Nat.eqb i a then k1 else k0) ->
  ising_hp k0 k1 kmul ksub kopp d q hx A X Id = Ok hp ->
  oeq d (osum k0 kadd sites (fun p => on (plaquette p) (loc4 k0 hp))) (H_ising k0 k1 kadd kmul kopp L M (kopp q) hx A X).
Proof.
  intros HI Hhp s s' Hs Hs'. destruct (hp_ising q hx A X Id HI) as (t & Et & _ & Ht). rewrite Hhp in Et. inv Et.
  unfold H_ising, oadd, oscale. rewrite (osum_nn k0 k1 kadd kmul ksub kopp Kr). unfold osum.
  rewrite (sum_map_ext k0 kadd sites _ (fun p => kopp k1 *k (B2 s s' A p (px p)) +k kopp k1 *k B2 s s' A p (py p) +k kopp q *k Q4 s s' A p (px p) (py p) (pxy p) +k kopp hx *k B1 s s' X p)).
  2:{ intros p Hp. change (on (plaquette p) (loc4 k0 t) s s') with (W s s' p t). rewrite Ht by assumption. ring. }
  rewrite !sums, !scales. unfold Sx, Sy, PlaqProofs3.Sx, PlaqProofs3.Sy.
  change (fun i => on [i] (loc1 k0 X) s s') with (B1 s s' X). change (fun i => on (plaquette i) (prod22 k0 kmul A A) s s') with (fun i => Q4 s s' A i (px i) (py i) (pxy i)).
  ring.
Qed.

Lemma h_hb A B : exists h v t, hb_h k0 k1 kadd kmul d A B = Ok (h, v, t) /\ good d h /\ good d v /\ good d t /\
  forall p s s', valid d s -> valid d s' -> W s s' p h = B2 s s' A p (px p) +k B2 s s' A (py p) (pxy p) /\
    W s s' p v = B2 s s' B p (py p) +k B2 s s' B (px p) (pxy p) /\ W s s' p t = W s s' p h +k W s s' p v.
Proof.
  unfold hb_h.
  pair A [2; 3; 0; 1; 6; 7; 4; 5]%nat [2; 3]%nat t1 E1 G1 H1. rewrite E1. cbn [bind].
  pair B [0; 2; 1; 3; 4; 6; 5; 7]%nat [0; 2]%nat t2 E2 G2 H2. rewrite E2. cbn [bind].
  pair B [2; 0; 3; 1; 6; 4; 7; 5]%nat [1; 3]%nat t3 E3 G3 H3. rewrite E3. cbn [bind].
  do 3 eexists. split; [reflexivity|].
  pose proof (emb_pair0 k0 k1 kadd kmul ksub kopp Kr d A) as HA.
  assert (GA : good d (two_two k0 kmul d A (id_n k0 k1 d 2))) by apply good_build.
  set (a := two_two k0 kmul d A (id_n k0 k1 d 2)) in *.
  split; [goodt|]. split; [goodt|]. split; [goodt|]. intros p s s' Hs Hs'. split; [|split]; lin Hs Hs'; embs Hs Hs'; reflexivity.
Qed.
Lemma h_jq j1 q A Q : exists h v, jq_h k0 k1 kadd kmul ksub d j1 q A Q = Ok (h, v) /\ good d h /\ good d v /\
  forall p s s', valid d s -> valid d s' ->
    W s s' p h = j1 *k (B2 s s' A p (px p) +k B2 s s' A (py p) (pxy p)) -k q *k (Q4 s s' Q p (px p) (py p) (pxy p) +k Q4 s s' Q p (py p) (px p) (pxy p)) /\
    W s s' p v = j1 *k (B2 s s' A p (py p) +k B2 s s' A (px p) (pxy p)) -k q *k (Q4 s s' Q p (px p) (py p) (pxy p) +k Q4 s s' Q p (py p) (px p) (pxy p)).
Proof.
  unfold jq_h.
  quad Q [0; 2; 1; 3; 4; 6; 5; 7]%nat [0; 2; 1; 3]%nat t4 E4 G4 H4. rewrite E4. cbn [bind].
  pair A [2; 3; 0; 1; 6; 7; 4; 5]%nat [2; 3]%nat t1 E1 G1 H1. rewrite E1. cbn [bind].
  pair A [0; 2; 1; 3; 4; 6; 5; 7]%nat [0; 2]%nat t2 E2 G2 H2. rewrite E2. cbn [bind].
  pair A [2; 0; 3; 1; 6; 4; 7; 5]%nat [1; 3]%nat t3 E3 G3 H3. rewrite E3. cbn [bind].
  do 2 eexists. split; [reflexivity|].
  pose proof (emb_pair0 k0 k1 kadd kmul ksub kopp Kr d A) as HA. pose proof (emb_quad0 k0 kmul d Q) as HQ.
  assert (GA : good d (two_two k0 kmul d A (id_n k0 k1 d 2))) by apply good_build.
  assert (GQ : good d (two_two k0 kmul d Q Q)) by apply good_build.
  set (a := two_two k0 kmul d A (id_n k0 k1 d 2)) in *. set (b := two_two k0 kmul d Q Q) in *.
  split; [goodt|]. split; [goodt|]. intros p s s' Hs Hs'. split; lin Hs Hs'; embs Hs Hs'; reflexivity.
Qed.
Lemma hp_jq_c4v j1 q A Q : exists t, jq_c4v_hp k0 k1 kadd kmul ksub d j1 q A Q = Ok t /\ good d t /\
  forall p s s', valid d s -> valid d s' ->
    W s s' p t = j1 *k (B2 s s' A p (px p) +k B2 s s' A p (py p)) -k q *k (Q4 s s' Q p (px p) (py p) (pxy p) +k Q4 s s' Q p (py p) (px p) (pxy p)).
Proof.
  unfold jq_c4v_hp.
  quad Q [0; 2; 1; 3; 4; 6; 5; 7]%nat [0; 2; 1; 3]%nat t4 E4 G4 H4. rewrite E4. cbn [bind].
  pair A [0; 2; 1; 3; 4; 6; 5; 7]%nat [0; 2]%nat t2 E2 G2 H2. rewrite E2. cbn [bind].
  eexists. split; [reflexivity|].
  pose proof (emb_pair0 k0 k1 kadd kmul ksub kopp Kr d A) as HA. pose proof (emb_quad0 k0 kmul d Q) as HQ.
  assert (GA : good d (two_two k0 kmul d A (id_n k0 k1 d 2))) by apply good_build.
  assert (GQ : good d (two_two k0 kmul d Q Q)) by apply good_build.
  set (a := two_two k0 kmul d A (id_n k0 k1 d 2)) in *. set (b := two_two k0 kmul d Q Q) in *.
  split; [goodt|]. intros p s s' Hs Hs'. lin Hs Hs'; embs Hs Hs'; reflexivity.
Qed.
Theorem jq_c4v_operator j1 q A Q hp : jq_c4v_hp k0 k1 kadd kmul ksub d j1 q A Q = Ok hp ->
  oeq d (osum k0 kadd sites (fun p => on (plaquette p) (loc4 k0 hp))) (H_jq k0 kadd kmul kopp L M j1 q A Q).
Proof.
  intros Hhp s s' Hs Hs'. destruct (hp_jq_c4v j1 q A Q) as (t & Et & _ & Ht). rewrite Hhp in Et. inv Et.
  unfold H_jq, oadd, oscale. rewrite (osum_nn k0 k1 kadd kmul ksub kopp Kr). unfold osum.
  rewrite (sum_map_ext k0 kadd sites _ (fun p => j1 *k (B2 s s' A p (px p) +k B2 s s' A p (py p)) +k kopp q *k (Q4 s s' Q p (px p) (py p) (pxy p) +k Q4 s s' Q p (py p) (px p) (pxy p)))).
  2:{ intros p Hp. change (on (plaquette p) (loc4 k0 t) s s') with (W s s' p t). rewrite Ht by assumption. ring. }
  rewrite sums, !scales, sums. reflexivity.
Qed.
End Others.
