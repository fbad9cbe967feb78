(** The Casimir operators and the triangle Hamiltonian in any ring. *)
From Verif Require Import Base BaseLemmas Tensor TensorLemmas Net Plaq Su3 Su3Spec Su3Num Su3Proofs Su3Proofs2 Su3Proofs3.
From Coq Require Import Ring.
Open Scope list_scope.
Open Scope nat_scope.
Open Scope res_scope.

Lemma combine_maps {A B C} (f : A -> B) (g : A -> C) l : combine (map f l) (map g l) = map (fun a => (f a, g a)) l.
Proof. induction l; cbn; congruence. Qed.
Lemma zip_build {K} (op : K -> K -> K) dims f g : tzip op (tbuild dims f) (tbuild dims g) = tbuild dims (fun ix => op (f ix) (g ix)).
Proof. unfold tzip, tbuild. cbn. rewrite combine_maps, map_map. reflexivity. Qed.
Lemma scl_build {K} (op : K -> K -> K) c dims f : tscl op c (tbuild dims f) = tbuild dims (fun ix => op c (f ix)).
Proof. unfold tscl, tmap, tbuild. cbn. now rewrite map_map. Qed.
Lemma el_build {K} (z : K) dims f ix : in_range dims ix -> el z (tbuild dims f) ix = f ix.
Proof. intros H. unfold el. now rewrite tget_tbuild. Qed.

Section S.
Context {K : Type} (k0 k1 : K) (kadd kmul ksub : K -> K -> K) (kopp : K -> K) (half third im s3 : K).
Hypothesis Kr : ring_theory k0 k1 kadd kmul ksub kopp (@eq K).
Add Ring Kring : Kr.
Variables (ph : fnum -> K).
Hypotheses (p0 : ph f0 = k0) (p1 : ph f1 = k1) (pa : forall x y, ph (fadd x y) = kadd (ph x) (ph y)) (pm : forall x y, ph (fmul x y) = kmul (ph x) (ph y))
  (ps : forall x y, ph (fsub x y) = ksub (ph x) (ph y)) (po : forall x, ph (fopp x) = kopp (ph x)) (ph2 : ph fhalf = half) (ph3 : ph fthird = third)
  (pim : ph fim = im) (ps3 : ph fs3 = s3)
  (feq_phi : forall x y, feq x y = true -> ph x = ph y).
Notation genK := (gen k0 k1 kadd kopp half third).
Notation c1K := (c1 k0 k1 kadd kmul kopp half third).
Notation c2K := (c2 k0 k1 kadd kmul ksub kopp half third im s3).
Notation fsK := (fs k0 k1 kadd kmul ksub kopp half third im s3).
Notation perm2K := (perm2 k0 k1 kadd kmul kopp half third).
Notation eK := (einsum k0 k1 kadd kmul).
Notation dir := (dirac k0 k1).
Notation mv p := (fun ix => dir (mvb p ix)).

Lemma dir_phi b : ph (dirac f0 f1 b) = dir b.
Proof. destruct b; assumption. Qed.
Lemma all2_phi l m : all2 l m = true -> map ph l = map ph m.
Proof. revert m. induction l as [|x l IH]; intros [|y m]; cbn; try discriminate; [reflexivity|]. intros H. apply andb_true_iff in H. destruct H as [H1 H2].
  now rewrite (feq_phi _ _ H1), (IH _ H2). Qed.
Lemma req_phi r dims g : reqF r dims g = true -> hres ph r = Ok (tbuild dims (fun ix => ph (g ix))).
Proof. destruct r as [t|e]; cbn [reqF]; [|discriminate]. unfold teqF. intros H. apply andb_true_iff in H. destruct H as [H1 H2].
  apply (proj1 (BaseLemmas.eqb_true _ _)) in H1. apply all2_phi in H2. cbn [hres]. f_equal. unfold tmap, tbuild. rewrite H1, H2, map_map. reflexivity. Qed.
Lemma build_dir dims f g : (forall ix, g ix = dirac f0 f1 (f ix)) -> tbuild dims (fun ix => ph (g ix)) = tbuild dims (fun ix => dir (f ix)).
Proof. intros H. apply build_ext. intros ix _. now rewrite H, dir_phi. Qed.
Notation genp := (gen_phi k0 k1 kadd kopp half third ph p0 p1 pa po ph2 ph3).
Notation eH := (einsum_hom f0 f1 fadd fmul k0 k1 kadd kmul ph p0 p1 pa pm).
Lemma c1_ok : c1K = Ok (tbuild [3; 3; 3; 3] (fun ix => kmul half (ksub (dir (swF ix)) (kmul third (dir (idF ix)))))).
Proof. rewrite (c1_phi k0 k1 kadd kmul kopp half third ph p0 p1 pa pm po ph2 ph3), (req_phi _ _ _ c_c1). f_equal. apply build_ext. intros ix _.
  now rewrite pm, ps, pm, !dir_phi, ph2, ph3. Qed.
Notation pK := (tbuild [3; 3; 3; 3] (fun ix => dir (swF ix))).
Lemma perm2_ok : perm2K = Ok pK.
Proof. rewrite (perm2_phi k0 k1 kadd kmul kopp half third ph p0 p1 pa pm po ph2 ph3), (req_phi _ _ _ c_p2). f_equal. now apply build_dir. Qed.
Lemma pT_phi : pK = tmap ph pT.
Proof. unfold pT. rewrite tmap_build. apply build_ext. intros ix _. now rewrite dir_phi. Qed.
Lemma ein_ok ops ops' out f : ops' = map (hop ph) ops -> reqF (eF ops out) D6 (fun ix => dirac f0 f1 (f ix)) = true -> eK ops' out = Ok (tbuild D6 (fun ix => dir (f ix))).
Proof. intros -> H. rewrite eH, (req_phi _ _ _ H). f_equal. now apply build_dir. Qed.
Ltac ek t := let E := fresh in pose proof t as E; cbn [map hop fst snd] in E; unfold hop in E; cbn [fst snd] in E; rewrite E; clear E; cbn [bind].
Lemma kagome_ok j k h : kagome_h k0 k1 kadd kmul ksub kopp half third im j k h = Ok (
  let p2t := tbuild D6 (fun ix => kadd (kadd (mv sw01 ix) (mv sw02 ix)) (mv sw12 ix)) in
  let h2 := tbuild D6 (fun ix => kmul j (kadd (kadd (mv sw01 ix) (mv sw02 ix)) (mv sw12 ix))) in
  let h3 := tbuild D6 (fun ix => kadd (kmul (kadd k (kmul h im)) (mv cyc ix)) (kmul (ksub k (kmul h im)) (mv cyc' ix))) in
  mkKag p2t (tbuild D6 (mv cyc)) (tbuild D6 (mv cyc')) h2 h3
    (tbuild D6 (fun ix => kadd (kmul j (kadd (kadd (mv sw01 ix) (mv sw02 ix)) (mv sw12 ix))) (kadd (kmul (kadd k (kmul h im)) (mv cyc ix)) (kmul (ksub k (kmul h im)) (mv cyc' ix)))))).
Proof. unfold kagome_h. rewrite perm2_ok. cbn [bind]. rewrite !pT_phi, !genp.
  ek (ein_ok [(pT, [0; 1; 3; 6]); (pT, [6; 2; 4; 5])] _ _ _ eq_refl c_l).
  ek (ein_ok [(pT, [0; 1; 3; 6]); (pT, [2; 6; 4; 5])] _ _ _ eq_refl c_r).
  ek (ein_ok [(pT, [0; 1; 3; 4]); (genF Id3, [2; 5])] _ _ _ eq_refl c_01).
  ek (ein_ok [(pT, [0; 2; 3; 5]); (genF Id3, [1; 4])] _ _ _ eq_refl c_02).
  ek (ein_ok [(pT, [1; 2; 4; 5]); (genF Id3, [0; 3])] _ _ _ eq_refl c_12).
  unfold tadd. rewrite !scl_build, !zip_build, !scl_build, !zip_build. reflexivity. Qed.

(** ** the cubic operator *)
Definition kelK (q : tensor K * (tensor K * tensor K)) (ix : list nat) : K :=
  match ix with [i; j; k; a; b; c] => kmul (el k0 (fst q) [i; a]) (kmul (el k0 (fst (snd q)) [j; b]) (el k0 (snd (snd q)) [k; c])) | _ => k0 end.
Lemma ein3_ok A B C : tdims A = [3; 3] -> tdims B = [3; 3] -> tdims C = [3; 3] ->
  eK [(A, [0; 1]); (B, [2; 3]); (C, [4; 5])] [0; 2; 4; 1; 3; 5] = Ok (tbuild D6 (kelK (A, (B, C)))).
Proof. intros HA HB HC. unfold einsum, summed, label_dims. cbn [flat_map fst snd app]. rewrite HA, HB, HC. cbn -[tbuild nsum nprod tel]. rewrite HA, HB, HC. cbn -[tbuild nsum nprod tel]. f_equal. apply build_ext.
  intros ix Hix. apply In_indices, in_range_length in Hix. cbn in Hix.
  destruct ix as [|i [|j [|k [|a [|b [|c [|? ?]]]]]]]; try discriminate Hix. cbn -[tel]. unfold tel, el. ring. Qed.
Lemma fold_ok (c : tensor K * (tensor K * tensor K) -> K) (l : list (tensor K * (tensor K * tensor K))) : forall g,
  (forall q, In q l -> tdims (fst q) = [3; 3] /\ tdims (fst (snd q)) = [3; 3] /\ tdims (snd (snd q)) = [3; 3]) ->
  foldM (fun acc q => let '(A, (B, C)) := q in
     x <- eK [(A, [0; 1]); (B, [2; 3]); (C, [4; 5])] [0; 2; 4; 1; 3; 5] ;; Ok (tadd kadd acc (tscl kmul (c (A, (B, C))) x))) l (tbuild D6 g)
  = Ok (tbuild D6 (fun ix => fold_left (fun s q => kadd s (kmul (c q) (kelK q ix))) l (g ix))).
Proof. induction l as [|[A [B C]] l IH]; intros g Hl; cbn [foldM fold_left]; [reflexivity|].
  destruct (Hl (A, (B, C)) (or_introl eq_refl)) as (HA & HB & HC). rewrite ein3_ok by assumption. cbn [bind].
  unfold tadd at 1. rewrite scl_build, zip_build. rewrite IH by (intros q Hq; apply Hl; now right). reflexivity. Qed.
Definition mq (q : tensor fnum * (tensor fnum * tensor fnum)) := (tmap ph (fst q), (tmap ph (fst (snd q)), tmap ph (snd (snd q)))).
Lemma prod_map {A B A' B'} (f : A -> A') (g : B -> B') l m : list_prod (map f l) (map g m) = map (fun q => (f (fst q), g (snd q))) (list_prod l m).
Proof. induction l as [|a l IH]; cbn; [reflexivity|]. rewrite map_app, IH, !map_map. reflexivity. Qed.
Lemma triples_phi l : triples (map (tmap ph) l) = map mq (triples l).
Proof. unfold triples. rewrite !prod_map. apply map_ext. intros [a [b c]]. reflexivity. Qed.
Lemma kel_phi q ix : kelK (mq q) ix = ph (kelF q ix).
Proof. unfold kelK, kelF, mq. cbn [fst snd]. destruct ix as [|i [|j [|k [|a [|b [|c [|? ?]]]]]]]; try (now rewrite p0). now rewrite !pm, !(el_hom f0 k0 ph p0). Qed.
Lemma fold_phi l ix : forall s, fold_left (fun s e => kadd s (kmul (ph (fst e)) (ph (kelF (snd e) ix)))) l (ph s) = ph (fold_left (fun s e => fadd s (fmul (fst e) (kelF (snd e) ix))) l s).
Proof. induction l as [|e l IH]; intros s; cbn; [reflexivity|]. now rewrite <- pm, <- pa, IH. Qed.
Lemma fz_phi x : fz x = true -> ph x = k0.
Proof. intros H. rewrite <- p0. apply feq_phi. unfold feq, fsub. destruct x as [[[[a b] c] d] e]. cbn in *.
  rewrite !andb_true_iff, !Z.eqb_eq in H. destruct H as [[[-> ->] ->] ->]. reflexivity. Qed.
Lemma fold_skip l ix : forall s, fold_left (fun s e => kadd s (kmul (ph (fst e)) (ph (kelF (snd e) ix)))) l s
  = fold_left (fun s e => kadd s (kmul (ph (fst e)) (ph (kelF (snd e) ix)))) (filter (fun e : fnum * (tensor fnum * (tensor fnum * tensor fnum)) => negb (fz (fst e))) l) s.
Proof. induction l as [|e l IH]; intros s; cbn [fold_left filter]; [reflexivity|]. destruct (fz (fst e)) eqn:E; cbn [negb fold_left]; [|apply IH].
  rewrite (fz_phi _ E). rewrite IH. f_equal. ring. Qed.
Lemma fold_map {A B C} (f : A -> B -> A) (g : C -> B) l : forall s, fold_left f (map g l) s = fold_left (fun s c => f s (g c)) l s.
Proof. induction l; intros s; cbn; congruence. Qed.
Lemma fold_ext {A B} (f g : A -> B -> A) l : (forall s x, f s x = g s x) -> forall s, fold_left f l s = fold_left g l s.
Proof. intros H. induction l; intros s; cbn; [reflexivity|]. now rewrite H. Qed.
Lemma c2_ok : c2K true = Ok (tbuild D6 (fun ix =>
  kadd (ksub (kmul (kmul half half) (kadd (mv cyc ix) (mv cyc' ix))) (kmul (kmul half third) (kadd (kadd (mv sw01 ix) (mv sw12 ix)) (mv sw02 ix))))
       (kmul (kmul third third) (mv (fun a => a) ix)))).
Proof. unfold c2. rewrite (fs_phi k0 k1 kadd kmul ksub kopp half third im s3 ph p0 p1 pa pm ps po ph2 ph3 pim ps3), fsT_eq, triples_phi.
  change (tzeros k0 [3; 3; 3; 3; 3; 3]) with (tbuild D6 (fun _ => k0)).
  etransitivity; [apply (fold_ok (fun q => d_coef k0 k1 kadd kmul (fst q) (fst (snd q)) (snd (snd q))))|].
  - intros q Hq. apply in_map_iff in Hq. destruct Hq as (q' & <- & Hq). unfold triples in Hq. destruct q' as [A [B C]].
    apply in_prod_iff in Hq. destruct Hq as [HA Hq]. apply in_prod_iff in Hq. destruct Hq as [HB HC]. unfold mq. cbn [fst snd tmap tdims].
    assert (X : forall t, In t fsT -> tdims t = [3; 3]).
    { intros t Ht. assert (Y : forallb (fun t => eqb (tdims t) [3; 3]) fsT = true) by (vm_compute; reflexivity). rewrite forallb_forall in Y. now apply (proj1 (BaseLemmas.eqb_true _ _)), Y. }
    auto.
  - f_equal. apply build_ext. intros ix Hix. rewrite fold_map.
    rewrite (fold_ext _ (fun s q => kadd s (kmul (ph (d_coef f0 f1 fadd fmul (fst q) (fst (snd q)) (snd (snd q)))) (ph (kelF q ix))))).
    2:{ intros s q. rewrite kel_phi. unfold mq. cbn [fst snd]. now rewrite (d_hom f0 f1 fadd fmul k0 k1 kadd kmul ph p0 p1 pa pm). }
    rewrite <- (fold_map (fun s e => kadd s (kmul (ph (fst e)) (ph (kelF (snd e) ix)))) (fun q => (d_coef f0 f1 fadd fmul (fst q) (fst (snd q)) (snd (snd q)), q))).
    rewrite fold_skip, <- termsF_eq. rewrite <- p0 at 1. rewrite fold_phi. fold (c2F ix).
    pose proof c_c2 as H. rewrite forallb_forall in H. rewrite (feq_phi _ _ (H ix Hix)). unfold c2S.
    now rewrite !pa, !ps, !pm, !pa, !dir_phi, ph2, ph3. Qed.
End S.
