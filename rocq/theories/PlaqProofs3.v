(** Sums of the plaquette tensors over the lattice. *)
From Coq Require Import Lia Ring Permutation.
From Verif Require Import Base BaseLemmas Tensor TensorLemmas Plaq PlaqSpec PlaqProofs PlaqProofs2.
Open Scope list_scope.
Open Scope Z_scope.

Section Ham.
Context {K : Type} (k0 k1 : K) (kadd kmul ksub : K -> K -> K) (kopp : K -> K).
Hypothesis Kr : ring_theory k0 k1 kadd kmul ksub kopp (@eq K).
Add Ring Kring3 : Kr.
Notation "a +k b" := (kadd a b) (at level 50, left associativity).
Notation "a -k b" := (ksub a b) (at level 50, left associativity).
Notation "a *k b" := (kmul a b) (at level 40, left associativity).
Notation sum l := (fold_right kadd k0 l).
Variables (L M : Z) (d : nat).
Hypotheses (HL : 2 <= L) (HM : 2 <= M).
Notation sites := (sites L M).
Notation on := (on k0 L M).
Notation loc2 := (loc2 k0).
Notation loc1 := (loc1 k0).
Notation loc4 := (loc4 k0).
Notation good := (good d).
Notation config := (config).
Variables (s s' : PlaqSpec.config).
Hypotheses (Hs : valid d s) (Hs' : valid d s').

Definition W (p : coord) (t : tensor K) : K := on (plaquette p) (loc4 t) s s'.
Lemma ok_at (q : PlaqSpec.config) p : valid d q -> ok4 d (map (fun r => q (wrap L M r)) (plaquette p)).
Proof. intros Hq. split; [reflexivity|]. cbn [plaquette map]. repeat (apply Forall_cons; [apply Hq|]). constructor. Qed.
Lemma W_add p a b : good a -> good b -> W p (tadd kadd a b) = W p a +k W p b.
Proof. intros Ga Gb. unfold W, PlaqSpec.on. destruct agree_off; [|ring]. rewrite (loc4_add k0 kadd d) by (auto using ok_at). reflexivity. Qed.
Lemma W_sub p a b : good a -> good b -> W p (tsub ksub a b) = W p a -k W p b.
Proof. intros Ga Gb. unfold W, PlaqSpec.on. destruct agree_off; [|ring]. rewrite (loc4_sub k0 ksub d) by (auto using ok_at). reflexivity. Qed.
Lemma W_scl p c a : good a -> W p (tscl kmul c a) = c *k W p a.
Proof. intros Ga. unfold W, PlaqSpec.on. destruct agree_off; [|ring]. rewrite (loc4_scl k0 kmul d) by (auto using ok_at). reflexivity. Qed.
Lemma W_emb p us O t : (forall u, In u us -> (u < 4)%nat) -> emb k0 d us O t -> W p t = on (pick (0, 0) us (plaquette p)) O s s'.
Proof.
  intros Hu He. unfold W. apply (on_pick k0 L M d HL HM); auto. - now apply plaq_nodup. - intros i a Hi Ha Fi Fa. apply He; split; assumption.
Qed.

(** the operators of one plaquette *)
Definition B2 (A : tensor K) (p q : coord) : K := on [p; q] (loc2 A) s s'.
Definition B1 (A : tensor K) (p : coord) : K := on [p] (loc1 A) s s'.
Definition Q4 (A : tensor K) (p q r t : coord) : K := on [p; q; r; t] (prod22 k0 kmul A A) s s'.
End Ham.

Section J1J2.
Context {K : Type} (k0 k1 : K) (kadd kmul ksub : K -> K -> K) (kopp : K -> K).
Hypothesis Kr : ring_theory k0 k1 kadd kmul ksub kopp (@eq K).
Add Ring Kring4 : Kr.
Notation "a +k b" := (kadd a b) (at level 50, left associativity).
Notation "a -k b" := (ksub a b) (at level 50, left associativity).
Notation "a *k b" := (kmul a b) (at level 40, left associativity).
Notation sum l := (fold_right kadd k0 l).
Variables (L M : Z) (d : nat).
Hypotheses (HL : 2 <= L) (HM : 2 <= M).
Notation sites := (sites L M).
Notation on := (on k0 L M).
Notation W := (W k0 L M).
Notation B2 := (B2 k0 L M).
Notation B1 := (B1 k0 L M).
Notation Q4 := (Q4 k0 kmul L M).
Ltac goodt := repeat first [assumption | apply good_build | apply good_tzip | apply good_tscl].
Ltac ustac := let u := fresh in let H := fresh in intros u H; cbn in H; repeat (destruct H as [<- |H]; [lia|]); destruct H.
Ltac pair A p us t E G H := destruct (emb_pair k0 k1 kadd kmul ksub kopp Kr d A p us ltac:(unfold pair_perm; cbn; tauto)) as (t & E & G & H).
Ltac site A p us t E G H := destruct (emb_site k0 k1 kadd kmul ksub kopp Kr d A p us ltac:(unfold site_perm; cbn; tauto)) as (t & E & G & H).
Ltac quad A p us t E G H := destruct (emb_quad k0 kmul d A p us ltac:(unfold quad_perm; cbn; tauto)) as (t & E & G & H).
Ltac lin Hs Hs' := repeat first
  [ rewrite (W_add k0 k1 kadd kmul ksub kopp Kr L M d) by (solve [exact Hs | exact Hs' | goodt])
  | rewrite (W_sub k0 k1 kadd kmul ksub kopp Kr L M d) by (solve [exact Hs | exact Hs' | goodt])
  | rewrite (W_scl k0 k1 kadd kmul ksub kopp Kr L M d) by (solve [exact Hs | exact Hs' | goodt])].
Ltac embs Hs Hs' := repeat match goal with H : emb k0 d ?us _ ?t |- context [W _ _ ?p ?t] => rewrite (W_emb k0 L M d HL HM _ _ Hs Hs' p us _ t ltac:(ustac) H) end.

Lemma hp_j1j2 half quarter j1 j2 hz A B Z U c : exists t, get_hp k0 k1 kadd kmul ksub kopp half quarter d j1 j2 hz A B Z U c = Ok t /\ good d t /\
  forall p s s', valid d s -> valid d s' -> W s s' p t =
    half *k j1 *k (B2 s s' A p (px p) +k B2 s s' A p (py p) +k B2 s s' A (py p) (pxy p) +k B2 s s' A (pxy p) (px p))
    +k j2 *k (B2 s s' B p (pxy p) +k B2 s s' B (py p) (px p))
    -k quarter *k hz *k sgn k1 kopp c *k (B1 s s' Z p -k B1 s s' Z (px p) -k B1 s s' Z (py p) +k B1 s s' Z (pxy p))
    +k quarter *k (B1 s s' U p +k B1 s s' U (py p) +k B1 s s' U (px p) +k B1 s s' U (pxy p)).
Proof.
  unfold get_hp.
  pair A [0; 2; 1; 3; 4; 6; 5; 7]%nat [0; 2]%nat t1 E1 G1 H1. rewrite E1. cbn [bind].
  pair A [2; 3; 0; 1; 6; 7; 4; 5]%nat [2; 3]%nat t2 E2 G2 H2. rewrite E2. cbn [bind].
  pair A [3; 1; 2; 0; 7; 5; 6; 4]%nat [3; 1]%nat t3 E3 G3 H3. rewrite E3. cbn [bind].
  pair B [0; 3; 2; 1; 4; 7; 6; 5]%nat [0; 3]%nat t4 E4 G4 H4. rewrite E4. cbn [bind].
  pair B [2; 1; 0; 3; 6; 5; 4; 7]%nat [2; 1]%nat t5 E5 G5 H5. rewrite E5. cbn [bind].
  site Z [3; 0; 1; 2; 7; 4; 5; 6]%nat [1]%nat t6 E6 G6 H6. rewrite E6. cbn [bind].
  site Z [2; 3; 0; 1; 6; 7; 4; 5]%nat [2]%nat t7 E7 G7 H7. rewrite E7. cbn [bind].
  site Z [1; 2; 3; 0; 5; 6; 7; 4]%nat [3]%nat t8 E8 G8 H8. rewrite E8. cbn [bind].
  site U [2; 3; 0; 1; 6; 7; 4; 5]%nat [2]%nat t9 E9 G9 H9. rewrite E9. cbn [bind].
  site U [3; 0; 1; 2; 7; 4; 5; 6]%nat [1]%nat t10 E10 G10 H10. rewrite E10. cbn [bind].
  site U [1; 2; 3; 0; 5; 6; 7; 4]%nat [3]%nat t11 E11 G11 H11. rewrite E11. cbn [bind].
  eexists. split; [reflexivity|].
  pose proof (emb_pair0 k0 k1 kadd kmul ksub kopp Kr d A) as HA. pose proof (emb_site0 k0 k1 kadd kmul ksub kopp Kr d Z) as HZ.
  pose proof (emb_site0 k0 k1 kadd kmul ksub kopp Kr d U) as HU.
  assert (GA : good d (two_two k0 kmul d A (id_n k0 k1 d 2))) by apply good_build.
  assert (GZ : good d (one_three k0 kmul d Z (id_n k0 k1 d 3))) by apply good_build.
  assert (GU : good d (one_three k0 kmul d U (id_n k0 k1 d 3))) by apply good_build.
  set (a := two_two k0 kmul d A (id_n k0 k1 d 2)) in *. set (z := one_three k0 kmul d Z (id_n k0 k1 d 3)) in *. set (u := one_three k0 kmul d U (id_n k0 k1 d 3)) in *.
  split; [goodt|]. intros p s s' Hs Hs'. lin Hs Hs'. embs Hs Hs'. reflexivity.
Qed.

Section Sums.
Variables (s s' : PlaqSpec.config).
Hypotheses (Hs : valid d s) (Hs' : valid d s').
Notation per := (per L M).
Lemma per_ext (f g : coord -> K) : (forall p, f p = g p) -> per g -> per f.
Proof. intros E H x y. rewrite !E. apply H. Qed.
Lemma per_on_f (h : coord -> list coord) vs (O : local) : (forall p, h p = map (cadd p) vs) -> per (fun p => on (h p) O s s').
Proof. intros E. apply per_ext with (g := fun p => on (map (cadd p) vs) O s s'); [intros p; now rewrite E | apply per_on]. Qed.
Ltac pers l := eapply (per_on_f _ l); intros [x y]; unfold px, py, pxy, cadd; cbn [map fst snd]; rewrite ?Z.add_0_r; reflexivity.
Lemma per_B1 A : per (fun p => B1 s s' A p).
Proof. pers [(0, 0)]. Qed.
Lemma per_B2x A : per (fun p => B2 s s' A p (px p)).
Proof. pers [(0, 0); (1, 0)]. Qed.
Lemma per_B2y A : per (fun p => B2 s s' A p (py p)).
Proof. pers [(0, 0); (0, 1)]. Qed.
Definition Sx A := sum (map (fun p => B2 s s' A p (px p)) sites).
Definition Sy A := sum (map (fun p => B2 s s' A p (py p)) sites).
Definition S1 A := sum (map (fun p => B1 s s' A p) sites).
Lemma Sx_shift A : sum (map (fun p => B2 s s' A (py p) (pxy p)) sites) = Sx A.
Proof. unfold Sx. rewrite <- (sum_py k0 k1 kadd kmul ksub kopp Kr L M HM _ (per_B2x A)). reflexivity. Qed.
Lemma Sy_shift A : sum (map (fun p => B2 s s' A (px p) (pxy p)) sites) = Sy A.
Proof. unfold Sy. rewrite <- (sum_px k0 k1 kadd kmul ksub kopp Kr L M HL _ (per_B2y A)). reflexivity. Qed.
Lemma Sy_swap A : symmetric2 k0 d A -> sum (map (fun p => B2 s s' A (pxy p) (px p)) sites) = Sy A.
Proof.
  intros HA. rewrite <- Sy_shift. apply (sum_map_ext k0 kadd). intros p _. now apply (on_swap k0 L M d).
Qed.
Definition par (p : coord) : K := parity k1 kopp p.
Lemma par_px p : par (px p) = kopp (par p).
Proof.
  unfold par, parity, px. cbn [fst snd]. replace (fst p + 1 + snd p) with (Z.succ (fst p + snd p)) by lia. rewrite Z.even_succ, <- Z.negb_even.
  destruct (Z.even _); cbn; ring.
Qed.
Lemma par_py p : par (py p) = kopp (par p).
Proof.
  unfold par, parity, py. cbn [fst snd]. replace (fst p + (snd p + 1)) with (Z.succ (fst p + snd p)) by lia. rewrite Z.even_succ, <- Z.negb_even.
  destruct (Z.even _); cbn; ring.
Qed.
Lemma even_mod x n : Z.even n = true -> Z.even (x mod n) = Z.even x.
Proof.
  intros He. destruct (Z.eq_dec n 0) as [-> |Hn]; [now rewrite Zmod_0_r|]. rewrite (Z.div_mod x n Hn) at 2. rewrite Z.even_add, Z.even_mul, He. cbn. now destruct (Z.even (x mod n)).
Qed.
Lemma per_par (f : coord -> K) : Z.even L = true -> Z.even M = true -> per f -> per (fun p => par p *k f p).
Proof.
  intros EL EM Hf x y. unfold par, parity. cbn [fst snd]. rewrite !Z.even_add, !even_mod by assumption.
  destruct (Hf x y) as [-> ->]. split; reflexivity.
Qed.
Lemma stag A : Z.even L = true -> Z.even M = true ->
  sum (map (fun p => par p *k (B1 s s' A p -k B1 s s' A (px p) -k B1 s s' A (py p) +k B1 s s' A (pxy p))) sites) =
  (k1 +k k1 +k k1 +k k1) *k sum (map (fun p => par p *k B1 s s' A p) sites).
Proof.
  intros EL EM. set (g := fun p => par p *k B1 s s' A p). assert (Pg : per g) by exact (per_par _ EL EM (per_B1 A)).
  rewrite (sum_map_ext k0 kadd sites _ (fun p => (g p +k g (px p)) +k (g (py p) +k g (pxy p)))).
  - rewrite !(sum_map_add k0 k1 kadd kmul ksub kopp Kr).
    rewrite (sum_px k0 k1 kadd kmul ksub kopp Kr L M HL _ Pg), (sum_py k0 k1 kadd kmul ksub kopp Kr L M HM _ Pg), (sum_pxy k0 k1 kadd kmul ksub kopp Kr L M HL HM _ Pg). ring.
  - intros p _. unfold g. change (pxy p) with (px (py p)) at 2. rewrite !par_px, !par_py. change (px (py p)) with (pxy p). ring.
Qed.
Lemma shift1 A : sum (map (fun p => B1 s s' A p +k B1 s s' A (py p) +k B1 s s' A (px p) +k B1 s s' A (pxy p)) sites) = (k1 +k k1 +k k1 +k k1) *k S1 A.
Proof.
  rewrite !(sum_map_add k0 k1 kadd kmul ksub kopp Kr).
  rewrite (sum_px k0 k1 kadd kmul ksub kopp Kr L M HL _ (per_B1 A)), (sum_py k0 k1 kadd kmul ksub kopp Kr L M HM _ (per_B1 A)), (sum_pxy k0 k1 kadd kmul ksub kopp Kr L M HL HM _ (per_B1 A)).
  change (sum (map (B1 s s' A) sites)) with (S1 A). change (sum (map (fun p => B1 s s' A p) sites)) with (S1 A). ring.
Qed.
Lemma sum_bonds {I} (l1 l2 : list I) (f : I -> K) : sum (map f (l1 ++ l2)) = sum (map f l1) +k sum (map f l2).
Proof. rewrite map_app. apply (sum_app k0 k1 kadd kmul ksub kopp Kr). Qed.
Lemma osum_nn A : osum k0 kadd (bonds_nn L M) (bond k0 L M (loc2 k0 A)) s s' = Sx A +k Sy A.
Proof. unfold osum, bonds_nn, bonds_x, bonds_y. rewrite sum_bonds, !map_map. reflexivity. Qed.
End Sums.

Theorem j1j2_operator half quarter j1 j2 hz A B Z U (hp : coord -> tensor K) :
  half +k half = k1 -> (k1 +k k1 +k k1 +k k1) *k quarter = k1 -> symmetric2 k0 d A -> (hz = k0 \/ Z.even L = true /\ Z.even M = true) ->
  (forall p, In p sites -> get_hp k0 k1 kadd kmul ksub kopp half quarter d j1 j2 hz A B Z U p = Ok (hp p)) ->
  oeq d (osum k0 kadd sites (fun p => on (plaquette p) (loc4 k0 (hp p)))) (H_j1j2 k0 k1 kadd kmul kopp L M j1 j2 hz A B Z U).
Proof.
  intros Hh Hq HA Hz Hhp s s' Hs Hs'. unfold H_j1j2, oadd, oscale. rewrite osum_nn. unfold osum at 1.
  assert (N : forall k, osum k0 kadd (bonds_nnn L M) (bond k0 L M (loc2 k0 k)) s s' = sum (map (fun p => B2 s s' k p (pxy p)) sites) +k sum (map (fun p => B2 s s' k (py p) (px p)) sites)).
  { intros k. unfold osum, bonds_nnn. rewrite sum_bonds, !map_map. reflexivity. }
  rewrite N.
  rewrite (sum_map_ext k0 kadd sites _ (fun p =>
    half *k j1 *k (B2 s s' A p (px p) +k B2 s s' A p (py p) +k B2 s s' A (py p) (pxy p) +k B2 s s' A (pxy p) (px p))
    +k j2 *k (B2 s s' B p (pxy p) +k B2 s s' B (py p) (px p))
    +k kopp quarter *k hz *k (par p *k (B1 s s' Z p -k B1 s s' Z (px p) -k B1 s s' Z (py p) +k B1 s s' Z (pxy p)))
    +k quarter *k (B1 s s' U p +k B1 s s' U (py p) +k B1 s s' U (px p) +k B1 s s' U (pxy p)))).
  2:{ intros p Hp. destruct (hp_j1j2 half quarter j1 j2 hz A B Z U p) as (t & Et & _ & Ht). rewrite (Hhp p Hp) in Et. inv Et.
      change (on (plaquette p) (loc4 k0 (hp p)) s s') with (W s s' p (hp p)). rewrite Ht by assumption. unfold par, parity, sgn. ring. }
  rewrite !(sum_map_add k0 k1 kadd kmul ksub kopp Kr), !(sum_map_scale k0 k1 kadd kmul ksub kopp Kr), !(sum_map_add k0 k1 kadd kmul ksub kopp Kr).
  rewrite Sx_shift, Sy_swap by assumption.
  pose proof (shift1 s s' U) as HU. rewrite !(sum_map_add k0 k1 kadd kmul ksub kopp Kr) in HU. rewrite HU.
  fold (Sx s s' A). fold (Sy s s' A).
  change (osum k0 kadd sites (fun p => on [p] (loc1 k0 U)) s s') with (S1 s s' U).
  assert (Q : kopp quarter *k hz *k sum (map (fun p => par p *k (B1 s s' Z p -k B1 s s' Z (px p) -k B1 s s' Z (py p) +k B1 s s' Z (pxy p))) sites)
     = kopp hz *k osum k0 kadd sites (fun p => oscale kmul (parity k1 kopp p) (on [p] (loc1 k0 Z))) s s').
  { destruct Hz as [-> |[EL EM]]; [ring|]. rewrite stag by assumption.
    change (osum k0 kadd sites (fun p => oscale kmul (parity k1 kopp p) (on [p] (loc1 k0 Z))) s s') with (sum (map (fun p => par p *k B1 s s' Z p) sites)).
    set (X := sum _). transitivity (kopp ((k1 +k k1 +k k1 +k k1) *k quarter) *k hz *k X); [ring|]. rewrite Hq. ring. }
  unfold oscale in Q. rewrite Q.
  set (X := kopp hz *k _). set (Y1 := sum _). set (Y2 := sum _). set (V := S1 s s' U). set (a := Sx s s' A). set (b := Sy s s' A).
  transitivity ((half +k half) *k j1 *k (a +k b) +k j2 *k (Y1 +k Y2) +k X +k ((k1 +k k1 +k k1 +k k1) *k quarter) *k V); [ring|]. rewrite Hh, Hq. ring.
Qed.
End J1J2.
