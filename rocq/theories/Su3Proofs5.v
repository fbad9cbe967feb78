(** SU(3) operators: the final statements. *)
From Verif Require Import Base BaseLemmas Tensor TensorLemmas Net Plaq Su3 Su3Spec Su3Num Su3Proofs Su3Proofs2 Su3Proofs3 Su3Proofs4.
From Coq Require Import Ring.
Open Scope list_scope.
Open Scope nat_scope.
Open Scope res_scope.

Section S.
Context {K : Type} (k0 k1 : K) (kadd kmul ksub : K -> K -> K) (kopp : K -> K) (half third im s3 : K).
Hypothesis Kr : ring_theory k0 k1 kadd kmul ksub kopp (@eq K).
Add Ring Kring : Kr.
Notation "a + b" := (kadd a b).
Notation "a * b" := (kmul a b).
Notation "a - b" := (ksub a b).
Notation dir := (dirac k0 k1).
Notation mv := (moves k0 k1).

(** *** what needs no numbers *)
Lemma mvb_ok p i a : length i = 3%nat -> dir (mvb p (i ++ a)) = mv p i a.
Proof. intros H. unfold mvb, moves. destruct i as [|x [|y [|w [|? ?]]]]; try discriminate H. reflexivity. Qed.
Lemma in_range6 i a : state3 3 i -> state3 3 a -> in_range D6 (i ++ a).
Proof. intros [Hi Fi] [Ha Fa]. destruct i as [|x [|y [|w [|? ?]]]]; try discriminate Hi. destruct a as [|x' [|y' [|w' [|? ?]]]]; try discriminate Ha.
  repeat match goal with H : Forall _ (_ :: _) |- _ => apply Forall_cons_iff in H; destruct H end. unfold in_range, D6. cbn [app]. repeat (apply Forall2_cons; [assumption|]). apply Forall2_nil. Qed.
Lemma bond_ok : exchange_bond k0 k1 = Ok (tbuild [3; 3; 3; 3] (fun ix => dir (swF ix))).
Proof. vm_compute. reflexivity. Qed.
Definition anyb (ix : list nat) : bool := mvb sw01 ix || mvb sw12 ix || mvb sw02 ix.
Lemma bond3_ok : exchange_bond_triangle k0 k1 = Ok (tbuild D6 (fun ix => dir (anyb ix))).
Proof. vm_compute. reflexivity. Qed.
Lemma tri_ok : permute_triangle k0 k1 = Ok (tbuild D6 (fun ix => dir (mvb cyc ix))).
Proof. vm_compute. reflexivity. Qed.
Lemma tri'_ok : permute_triangle_inv k0 k1 = Ok (tbuild D6 (fun ix => dir (mvb cyc' ix))).
Proof. vm_compute. reflexivity. Qed.
Lemma chiral_ok Kr' Ki j1 : chiral_h k0 k1 kadd kmul ksub im Kr' Ki j1
  = Ok (tbuild D6 (fun ix => (Kr' + im * Ki) * dir (mvb cyc ix) + (Kr' - im * Ki) * dir (mvb cyc' ix) + j1 * dir (anyb ix))).
Proof. unfold chiral_h. rewrite tri_ok, tri'_ok, bond3_ok. cbn [bind]. unfold tadd. rewrite !scl_build, !zip_build. reflexivity. Qed.
(** the elements of the operator of the three bonds *)
Lemma any_ok i a : state3 3 i -> state3 3 a ->
  bonds3 k0 k1 kadd i a = dir (anyb (i ++ a)) + (k1 + k1) * dir (equal3 i && eqb i a).
Proof. intros [Hi _] [Ha _]. destruct i as [|x [|y [|w [|? ?]]]]; try discriminate Hi. destruct a as [|x' [|y' [|w' [|? ?]]]]; try discriminate Ha.
  unfold bonds3, moves, anyb, mvb. cbn [app firstn skipn sw01 sw12 sw02 equal3].
  destruct (eqb [x; y; w] [y'; x'; w']) eqn:E1; destruct (eqb [x; y; w] [x'; w'; y']) eqn:E2; destruct (eqb [x; y; w] [w'; y'; x']) eqn:E3;
  repeat match goal with H : eqb _ _ = true |- _ => apply (proj1 (BaseLemmas.eqb_true _ _)) in H; injection H; clear H; intros end.
  all: match goal with |- context [_ && eqb ?l ?m] => destruct (eqb l m) eqn:E4 end.
  all: try (apply (proj1 (BaseLemmas.eqb_true _ _)) in E4; injection E4; clear E4; intros).
  all: destruct (Nat.eqb_spec x y) as [E5|E5]; destruct (Nat.eqb_spec y w) as [E6|E6]; cbn [andb dirac orb].
  all: try (ring).
  all: exfalso; subst; try congruence.
  all: repeat match goal with H : eqb ?l ?m = false |- _ => apply BaseLemmas.eqb_false in H; apply H; congruence end. Qed.

(** *** the matrices of three sites joined into one index *)
Definition fm (i : list nat) : nat := match i with [x; y; w] => fmap x y w | _ => 0 end.
Lemma fmap_lt i : state3 3 i -> (fm i < 27)%nat.
Proof. intros [Hi Fi]. destruct i as [|x [|y [|w [|? ?]]]]; try discriminate Hi.
  repeat match goal with H : Forall _ (_ :: _) |- _ => apply Forall_cons_iff in H; destruct H end. unfold fm, fmap. lia. Qed.
Lemma fmap_inv_ok i : state3 3 i -> fmap_inv (fm i) = (nth 0 i 0, nth 1 i 0, nth 2 i 0).
Proof. intros [Hi Fi]. destruct i as [|x [|y [|w [|? ?]]]]; try discriminate Hi.
  repeat match goal with H : Forall _ (_ :: _) |- _ => apply Forall_cons_iff in H; destruct H end. unfold fm, fmap, fmap_inv. cbn [nth].
  assert (E : ((w + 3 * y + 9 * x) / 9 = x)%nat) by (symmetry; apply (Nat.div_unique _ 9 x (w + 3 * y)); lia). rewrite E.
  replace (w + 3 * y + 9 * x - 9 * x)%nat with (w + 3 * y)%nat by lia.
  assert (E' : ((w + 3 * y) / 3 = y)%nat) by (symmetry; apply (Nat.div_unique _ 3 y w); lia). rewrite E'. repeat f_equal. lia. Qed.
Lemma inv_fmap_ok s : (s < 27)%nat -> let '(x, y, w) := fmap_inv s in state3 3 [x; y; w] /\ fmap x y w = s.
Proof. intros H. assert (X : forallb (fun s => let '(x, y, w) := fmap_inv s in (x <? 3) && (y <? 3) && (w <? 3) && (fmap x y w =? s)) (seq 0 27) = true) by (vm_compute; reflexivity).
  rewrite forallb_forall in X. specialize (X s). rewrite in_seq in X. specialize (X ltac:(lia)). destruct (fmap_inv s) as [[x y] w].
  rewrite !andb_true_iff, !Nat.ltb_lt, Nat.eqb_eq in X. destruct X as [[[X1 X2] X3] X4]. split; [|exact X4]. split; [reflexivity|]. repeat (apply Forall_cons; [assumption|]). apply Forall_nil. Qed.
Definition inv3 (s : nat) : list nat := let '(x, y, w) := fmap_inv s in [x; y; w].
Definition m27 (p : list nat -> list nat) : tensor K :=
  tbuild [27; 27] (fun ix => match ix with [s; t] => dir (eqb (inv3 s) (p (inv3 t))) | _ => k0 end).
Lemma m12 : matP_12 k0 k1 = Ok (m27 sw01). Proof. vm_compute. reflexivity. Qed.
Lemma m23 : matP_23 k0 k1 = Ok (m27 sw12). Proof. vm_compute. reflexivity. Qed.
Lemma m31 : matP_31 k0 k1 = Ok (m27 sw02). Proof. vm_compute. reflexivity. Qed.
Lemma mt : matP_t k0 k1 = Ok (m27 cyc). Proof. vm_compute. reflexivity. Qed.
Lemma mt2 : matP_t2 k0 k1 = Ok (m27 cyc'). Proof. vm_compute. reflexivity. Qed.
Lemma inv3_ok i : state3 3 i -> inv3 (fm i) = i.
Proof. intros H. unfold inv3. rewrite (fmap_inv_ok i H). destruct H as [H _]. destruct i as [|x [|y [|w [|? ?]]]]; try discriminate H. reflexivity. Qed.
Lemma r27 i a : state3 3 i -> state3 3 a -> in_range [27; 27] [fm i; fm a].
Proof. intros Hi Ha. apply fmap_lt in Hi, Ha. unfold in_range. apply Forall2_cons; [exact Hi|]. apply Forall2_cons; [exact Ha|]. apply Forall2_nil. Qed.
Lemma m27_ok p i a : state3 3 i -> state3 3 a -> el k0 (m27 p) [fm i; fm a] = mv p i a.
Proof. intros Hi Ha. unfold m27. rewrite el_build by now apply r27. now rewrite !inv3_ok. Qed.
Lemma diag_ok lam site i a : (site < 3)%nat -> state3 3 i -> state3 3 a ->
  el k0 (diag27 k0 lam site) [fm i; fm a] = if eqb i a then el k0 lam [nth site i 0; nth site i 0] else k0.
Proof. intros Hs Hi Ha. unfold diag27. rewrite el_build by now apply r27. destruct (Nat.eqb_spec (fm i) (fm a)) as [E|E].
  - assert (E' : i = a) by (rewrite <- (inv3_ok i Hi), <- (inv3_ok a Ha); now rewrite E). subst a.
    replace (eqb i i) with true by (symmetry; now apply (proj2 (BaseLemmas.eqb_true _ _))).
    rewrite fmap_inv_ok by assumption. destruct site as [|[|[|?]]]; [reflexivity|reflexivity|reflexivity|lia].
  - destruct (eqb i a) eqn:E'; [|reflexivity]. apply (proj1 (BaseLemmas.eqb_true _ _)) in E'. congruence. Qed.
Lemma chiral_final kr ki j1 : exists t, chiral_h k0 k1 kadd kmul ksub im kr ki j1 = Ok t /\ tdims t = D6 /\
  forall i a, state3 3 i -> state3 3 a -> el k0 t (i ++ a) + j1 * ((k1 + k1) * dir (equal3 i && eqb i a)) = H_triangle k0 k1 kadd kmul ksub im j1 kr ki i a.
Proof. eexists. split; [apply chiral_ok|]. split; [reflexivity|]. intros i a Hi Ha. rewrite el_build by now apply in_range6.
  unfold H_triangle. rewrite (any_ok i a Hi Ha). rewrite !mvb_ok by exact (proj1 Hi). ring. Qed.
Lemma bond_final : exists t, exchange_bond k0 k1 = Ok t /\ forall i j a b, (i < 3)%nat -> (j < 3)%nat -> (a < 3)%nat -> (b < 3)%nat -> el k0 t [i; j; a; b] = dir ((i =? b) && (j =? a)).
Proof. eexists. split; [apply bond_ok|]. intros i j a b Hi Hj Ha Hb. rewrite el_build by rng. reflexivity. Qed.
Lemma tri_final : exists t, permute_triangle k0 k1 = Ok t /\ forall i a, state3 3 i -> state3 3 a -> el k0 t (i ++ a) = mv cyc i a.
Proof. eexists. split; [apply tri_ok|]. intros i a Hi Ha. rewrite el_build by now apply in_range6. now rewrite !mvb_ok by exact (proj1 Hi). Qed.
Lemma tri'_final : exists t, permute_triangle_inv k0 k1 = Ok t /\ forall i a, state3 3 i -> state3 3 a -> el k0 t (i ++ a) = mv cyc' i a.
Proof. eexists. split; [apply tri'_ok|]. intros i a Hi Ha. rewrite el_build by now apply in_range6. now rewrite !mvb_ok by exact (proj1 Hi). Qed.
Lemma aklt_final : forall P p, In (P, p) [(matP_12 k0 k1, sw01); (matP_23 k0 k1, sw12); (matP_31 k0 k1, sw02); (matP_t k0 k1, cyc); (matP_t2 k0 k1, cyc')] ->
  exists t, P = Ok t /\ tdims t = [27; 27] /\ forall x y w x' y' w', state3 3 [x; y; w] -> state3 3 [x'; y'; w'] ->
    el k0 t [fmap x y w; fmap x' y' w'] = mv p [x; y; w] [x'; y'; w'].
Proof. rewrite m12, m23, m31, mt, mt2. intros P p H. exists (m27 p). split; [|split; [reflexivity|]].
  - cbn [In] in H. decompose [or] H; clear H; try contradiction; match goal with E : (_, _) = _ |- _ => apply pair_equal_spec in E; destruct E as [E1 E2]; rewrite <- E1, <- E2; reflexivity end.
  - intros x y w x' y' w' Hi Ha. exact (m27_ok p _ _ Hi Ha). Qed.
End S.

Section N.
Context {K : Type} (k0 k1 : K) (kadd kmul ksub : K -> K -> K) (kopp : K -> K) (half third im s3 : K).
Hypothesis Kr : ring_theory k0 k1 kadd kmul ksub kopp (@eq K).
Add Ring Kring' : Kr.
Notation "a + b" := (kadd a b).
Notation "a * b" := (kmul a b).
Notation "a - b" := (ksub a b).
Notation dir := (dirac k0 k1).
Notation mv := (moves k0 k1).
Hypothesis Hhalf : kadd k1 k1 * half = k1.
Hypothesis Hthird : (k1 + (k1 + k1)) * third = k1.
Hypothesis Him : im * im = kopp k1.
Hypothesis Hs3 : s3 * s3 = k1 + (k1 + k1).
Variables (cj re : K -> K).
Hypotheses (cj_add : forall x y, cj (x + y) = cj x + cj y) (cj_mul : forall x y, cj (x * y) = cj x * cj y) (cj_1 : cj k1 = k1)
  (cj_im : cj im = kopp im) (cj_s3 : cj s3 = s3) (re_half : forall x, re x = half * (x + cj x)).
Notation pp := (phi k0 k1 kadd kmul kopp half third im s3).
Notation W L := (L K k0 k1 kadd kmul ksub kopp half third im s3 Kr).
Let p0 := phi_0 k0 k1 kadd kmul ksub kopp half third im s3 Kr.
Let p1 := phi_1 k0 k1 kadd kmul ksub kopp half third im s3 Kr.
Let pa := phi_add k0 k1 kadd kmul ksub kopp half third im s3 Kr Hhalf Hthird.
Let pm := phi_mul k0 k1 kadd kmul ksub kopp half third im s3 Kr Him Hs3.
Let ps := phi_sub k0 k1 kadd kmul ksub kopp half third im s3 Kr Hhalf Hthird.
Let po := phi_opp k0 k1 kadd kmul ksub kopp half third im s3 Kr.
Let p2 := phi_half k0 k1 kadd kmul ksub kopp half third im s3 Kr Hthird.
Let p3 := phi_third k0 k1 kadd kmul ksub kopp half third im s3 Kr Hhalf.
Let pim := phi_im k0 k1 kadd kmul ksub kopp half third im s3 Kr.
Let ps3 := phi_s3 k0 k1 kadd kmul ksub kopp half third im s3 Kr.
Let pfeq := feq_ok k0 k1 kadd kmul ksub kopp half third im s3 Kr Hhalf Hthird.
Let pcj := phi_cj k0 k1 kadd kmul ksub kopp half third im s3 Kr Hhalf Hthird cj cj_add cj_mul cj_1 cj_im cj_s3.
Let pre := phi_re k0 k1 kadd kmul ksub kopp half third im s3 Kr Hhalf Hthird cj re cj_add cj_mul cj_1 cj_im cj_s3 re_half.
Notation gm := (gell_mann k0 k1 kadd kmul ksub kopp half third im s3 re).
Notation cw := (cartan_weyl k0 k1 kadd kopp half third re).

Lemma su3_final : tdims (gm true) = [8; 3; 3] /\ is_su3 k0 k1 kadd kmul ksub kopp half im s3 cj (fun a i j => el k0 (gm true) [a; i; j]).
Proof. exact (su3_ok k0 k1 kadd kmul ksub kopp half third im s3 cj re pp p0 p1 pa pm ps po p2 p3 pim ps3 pcj pre pfeq). Qed.
Lemma c1_final : exists t, c1 k0 k1 kadd kmul kopp half third = Ok t /\ tdims t = [3; 3; 3; 3] /\ forall i j a b, (i < 3)%nat -> (j < 3)%nat -> (a < 3)%nat -> (b < 3)%nat ->
  el k0 t [i; j; a; b] = half * (dir ((i =? b) && (j =? a)) - third * dir ((i =? a) && (j =? b))).
Proof. eexists. split; [exact (c1_ok k0 k1 kadd kmul ksub kopp half third pp p0 p1 pa pm ps po p2 p3 pfeq)|]. split; [reflexivity|].
  intros i j a b Hi Hj Ha Hb. rewrite el_build by rng. reflexivity. Qed.
Lemma c2_final : exists t, c2 k0 k1 kadd kmul ksub kopp half third im s3 true = Ok t /\ tdims t = D6 /\ forall i a, state3 3 i -> state3 3 a ->
  el k0 t (i ++ a) = half * half * (mv cyc i a + mv cyc' i a) - half * third * bonds3 k0 k1 kadd i a + third * third * mv (fun a => a) i a.
Proof. eexists. split; [exact (c2_ok k0 k1 kadd kmul ksub kopp half third im s3 Kr pp p0 p1 pa pm ps po p2 p3 pim ps3 pfeq)|]. split; [reflexivity|].
  intros i a Hi Ha. rewrite el_build by now apply in_range6. pose proof (proj1 Hi) as L. now rewrite !mvb_ok by exact L. Qed.
Lemma kagome_final j k h : exists o, kagome_h k0 k1 kadd kmul ksub kopp half third im j k h = Ok o /\
  Forall (fun t => tdims t = D6) [h_tri o; h2_tri o; h3_tri o; perm2_tri o; perm3_l o; perm3_r o; chirality kmul ksub im o] /\
  forall i a, state3 3 i -> state3 3 a ->
    el k0 (perm2_tri o) (i ++ a) = bonds3 k0 k1 kadd i a /\ el k0 (perm3_l o) (i ++ a) = mv cyc i a /\ el k0 (perm3_r o) (i ++ a) = mv cyc' i a /\
    el k0 (h_tri o) (i ++ a) = H_triangle k0 k1 kadd kmul ksub im j k h i a /\
    el k0 (h2_tri o) (i ++ a) + el k0 (h3_tri o) (i ++ a) = el k0 (h_tri o) (i ++ a) /\ el k0 (h2_tri o) (i ++ a) = j * bonds3 k0 k1 kadd i a /\
    el k0 (chirality kmul ksub im o) (i ++ a) = im * (mv cyc i a - mv cyc' i a).
Proof. eexists. split; [exact (kagome_ok k0 k1 kadd kmul ksub kopp half third im pp p0 p1 pa pm po p2 p3 pfeq j k h)|].
  cbv zeta. unfold chirality. cbn [perm2_tri perm3_l perm3_r h2_tri h3_tri h_tri]. unfold tsub. rewrite zip_build, scl_build.
  split; [repeat (apply Forall_cons; [reflexivity|]); apply Forall_nil|].
  intros i a Hi Ha. pose proof (proj1 Hi) as L. rewrite !el_build by now apply in_range6. rewrite !mvb_ok by exact L. unfold H_triangle, bonds3.
  repeat split; try reflexivity; ring. Qed.
Lemma kagome_wf j k h o : kagome_h k0 k1 kadd kmul ksub kopp half third im j k h = Ok o -> twf (h_tri o) /\ twf (perm2_tri o) /\ twf (chirality kmul ksub im o).
Proof. rewrite (kagome_ok k0 k1 kadd kmul ksub kopp half third im pp p0 p1 pa pm po p2 p3 pfeq j k h). intros H. injection H as <-. unfold chirality. cbn [perm2_tri perm3_l perm3_r h_tri]. unfold tsub.
  rewrite zip_build, scl_build. repeat split; apply twf_tbuild. Qed.
(** the operators of Cartan and Weyl and the Gell-Mann matrices *)
Lemma cw_final : tdims (cw true) = [8; 3; 3] /\ forall i j, (i < 3)%nat -> (j < 3)%nat ->
  let J k := el k0 (cw true) [k; i; j] in let l k := el k0 (gm true) [k; i; j] in
  J 0%nat = half * (l 0%nat + im * l 1%nat) /\ J 1%nat = half * (l 0%nat - im * l 1%nat) /\ J 2%nat = half * l 2%nat /\
  J 3%nat = half * (l 3%nat + im * l 4%nat) /\ J 4%nat = half * (l 3%nat - im * l 4%nat) /\
  J 5%nat = half * (l 5%nat + im * l 6%nat) /\ J 6%nat = half * (l 5%nat - im * l 6%nat) /\ J 7%nat = third * s3 * l 7%nat.
Proof. split; [reflexivity|]. intros i j Hi Hj.
  set (F := el f0 (cwF true)). set (G := el f0 gT).
  assert (EJ : forall k, el k0 (cw true) [k; i; j] = pp (F [k; i; j])).
  { intros k. unfold F. rewrite (cw_phi k0 k1 kadd kopp half third re pp p0 p1 pa po p2 p3 pre). apply (el_hom f0 k0 pp p0). }
  assert (EG : forall k, el k0 (gm true) [k; i; j] = pp (G [k; i; j])).
  { intros k. unfold G. rewrite (gm_phi k0 k1 kadd kmul ksub kopp half third im s3 re pp p0 p1 pa pm ps po p2 p3 pim ps3 pre), gT_eq. apply (el_hom f0 k0 pp p0). }
  cbv beta zeta. rewrite !EJ, !EG.
  assert (X : forallb (fun ix => let F k := F (k :: ix) in let G k := G (k :: ix) in
     feq (F 0%nat) (fmul fhalf (fadd (G 0%nat) (fmul fim (G 1%nat)))) && feq (F 1%nat) (fmul fhalf (fsub (G 0%nat) (fmul fim (G 1%nat)))) && feq (F 2%nat) (fmul fhalf (G 2%nat)) &&
     feq (F 3%nat) (fmul fhalf (fadd (G 3%nat) (fmul fim (G 4%nat)))) && feq (F 4%nat) (fmul fhalf (fsub (G 3%nat) (fmul fim (G 4%nat)))) &&
     feq (F 5%nat) (fmul fhalf (fadd (G 5%nat) (fmul fim (G 6%nat)))) && feq (F 6%nat) (fmul fhalf (fsub (G 5%nat) (fmul fim (G 6%nat)))) && feq (F 7%nat) (fmul (fmul fthird fs3) (G 7%nat))) (indices [3; 3]) = true) by (vm_compute; reflexivity).
  rewrite forallb_forall in X. specialize (X [i; j]). cbv beta zeta in X. rewrite !andb_true_iff in X.
  destruct X as [[[[[[[X0 X1] X2] X3] X4] X5] X6] X7]. { apply In_indices. rng. }
  apply pfeq in X0, X1, X2, X3, X4, X5, X6, X7. rewrite X0, X1, X2, X3, X4, X5, X6, X7. rewrite !pm, !pa, !ps, !pm, p2, p3, pim, ps3. repeat split; reflexivity. Qed.
Lemma real_final : tdims (gm false) = [8; 3; 3] /\ (forall k i j, In k [1; 4; 6]%nat -> (i < 3)%nat -> (j < 3)%nat -> el k0 (gm false) [k; i; j] = k0).
Proof. split; [reflexivity|]. intros k i j Hk Hi Hj. rewrite (gm_phi k0 k1 kadd kmul ksub kopp half third im s3 re pp p0 p1 pa pm ps po p2 p3 pim ps3 pre), (el_hom f0 k0 pp p0).
  etransitivity; [|exact p0]. apply pfeq. assert (X : forallb (fun ix => feq (el f0 (gmF false) ix) f0) (flat_map (fun k => map (cons k) (indices [3; 3])) [1; 4; 6]%nat) = true) by (vm_compute; reflexivity).
  rewrite forallb_forall in X. apply X. apply in_flat_map. exists k. split; [exact Hk|]. apply in_map, In_indices. rng. Qed.
Lemma real_refuted : k1 <> k0 -> ~ is_su3 k0 k1 kadd kmul ksub kopp half im s3 cj (fun a i j => el k0 (gm false) [a; i; j]).
Proof. intros H01 (_ & _ & H & _). specialize (H 1 1 ltac:(lia) ltac:(lia))%nat. cbn [Nat.eqb] in H.
  unfold mtrace, mprod, total in H. cbn [map seq fold_right] in H.
  rewrite !(proj2 real_final 1%nat) in H by (cbn; auto; lia). apply H01.
  transitivity ((k1 + k1) * half); [symmetry; exact Hhalf|]. rewrite <- H. ring. Qed.
(** C1 is the sum over the generators *)
Lemma c1_sum : forall i j a b, (i < 3)%nat -> (j < 3)%nat -> (a < 3)%nat -> (b < 3)%nat ->
  half * (dir ((i =? b) && (j =? a)) - third * dir ((i =? a) && (j =? b)))
  = total k0 kadd 8 (fun k => half * el k0 (gm true) [k; i; a] * (half * el k0 (gm true) [k; j; b])).
Proof. intros i j a b Hi Hj Ha Hb. set (G := el f0 gT).
  assert (EG : forall k i a, el k0 (gm true) [k; i; a] = pp (G [k; i; a])).
  { intros k i' a'. unfold G. rewrite (gm_phi k0 k1 kadd kmul ksub kopp half third im s3 re pp p0 p1 pa pm ps po p2 p3 pim ps3 pre), gT_eq. apply (el_hom f0 k0 pp p0). }
  rewrite (total_ext k0 kadd 8 _ (fun k => pp (fmul (fmul fhalf (G [k; i; a])) (fmul fhalf (G [k; j; b]))))) by (intros; rewrite !EG, !pm, p2; reflexivity).
  rewrite (total_phi k0 kadd pp p0 pa).
  transitivity (pp (fmul fhalf (fsub (dirac f0 f1 ((i =? b) && (j =? a))) (fmul fthird (dirac f0 f1 ((i =? a) && (j =? b))))))).
  { rewrite pm, ps, pm, p2, p3. now rewrite !(dir_phi k0 k1 pp p0 p1). }
  apply pfeq.
  assert (X : forallb (fun ix => match ix with [i; j; a; b] => feq (fmul fhalf (fsub (dirac f0 f1 ((i =? b) && (j =? a))) (fmul fthird (dirac f0 f1 ((i =? a) && (j =? b))))))
     (total f0 fadd 8 (fun k => fmul (fmul fhalf (G [k; i; a])) (fmul fhalf (G [k; j; b])))) | _ => false end) (indices [3; 3; 3; 3]) = true) by (vm_compute; reflexivity).
  rewrite forallb_forall in X. apply (X [i; j; a; b]). apply In_indices. rng. Qed.
(** the generators of SU3_chiral *)
Lemma gens_final : length (su3_gens k0 k1 kadd kmul kopp third im s3) = 8%nat /\ forall k i j, (k < 8)%nat -> (i < 3)%nat -> (j < 3)%nat ->
  el k0 (nth k (su3_gens k0 k1 kadd kmul kopp third im s3) (tzeros k0 [])) [i; j] = el k0 (gm true) [k; i; j].
Proof. split; [reflexivity|]. intros k i j Hk Hi Hj.
  rewrite (gm_phi k0 k1 kadd kmul ksub kopp half third im s3 re pp p0 p1 pa pm ps po p2 p3 pim ps3 pre), gT_eq, (el_hom f0 k0 pp p0).
  assert (E : su3_gens k0 k1 kadd kmul kopp third im s3 = map (tmap pp) (su3_gens f0 f1 fadd fmul fopp fthird fim fs3)).
  { unfold su3_gens, lambda_3, lambda_8, two. cbn [map]. rewrite <- (tscl_hom fmul kmul pp pm), <- !(entries_hom f0 k0 pp p0).
    cbn [map hent fst snd]. unfold hent. cbn [map fst snd]. rewrite !pm, !po, !pa, p1, p3, pim, ps3. reflexivity. }
  rewrite E. rewrite (nth_indep _ _ (tmap pp (tzeros f0 []))) by (rewrite map_length; exact Hk). rewrite map_nth, (el_hom f0 k0 pp p0). apply pfeq.
  assert (X : forallb (fun ix => match ix with [k; i; j] => feq (el f0 (nth k (su3_gens f0 f1 fadd fmul fopp fthird fim fs3) (tzeros f0 [])) [i; j]) (el f0 gT [k; i; j]) | _ => false end) (indices [8; 3; 3]) = true) by (vm_compute; reflexivity).
  rewrite forallb_forall in X. apply (X [k; i; j]). apply In_indices. rng. Qed.
(** Hermiticity *)
Lemma cj_dir b : cj (dir b) = dir b.
Proof. destruct b; [exact cj_1|]. exact (Su3Num.cj_0 k0 k1 kadd kmul ksub kopp Kr cj cj_add). Qed.
Lemma moves_inv p q i a : state3 3 i -> state3 3 a -> (i = p a <-> a = q i) -> mv p i a = mv q a i.
Proof. intros _ _ H. unfold moves. destruct (eqb i (p a)) eqn:E1; destruct (eqb a (q i)) eqn:E2; try reflexivity.
  - apply (proj1 (BaseLemmas.eqb_true _ _)) in E1. apply BaseLemmas.eqb_false in E2. exfalso. apply E2, H, E1.
  - apply (proj1 (BaseLemmas.eqb_true _ _)) in E2. apply BaseLemmas.eqb_false in E1. exfalso. apply E1, H, E2. Qed.
Lemma inv_cases p q i a : state3 3 i -> state3 3 a -> (forall x y w x' y' w', [x; y; w] = p [x'; y'; w'] <-> [x'; y'; w'] = q [x; y; w]) -> (i = p a <-> a = q i).
Proof. intros [Hi _] [Ha _] H. destruct i as [|x [|y [|w [|? ?]]]]; try discriminate Hi. destruct a as [|x' [|y' [|w' [|? ?]]]]; try discriminate Ha. apply H. Qed.
Lemma tri_hermitian J Kc h i a : cj J = J -> cj Kc = Kc -> cj h = h -> state3 3 i -> state3 3 a ->
  H_triangle k0 k1 kadd kmul ksub im J Kc h i a = cj (H_triangle k0 k1 kadd kmul ksub im J Kc h a i).
Proof. intros HJ HK Hh Hi Ha. unfold H_triangle, bonds3.
  assert (E1 : mv sw01 i a = mv sw01 a i) by (apply moves_inv; auto; apply inv_cases; auto; intros; cbn; split; intros E; injection E; intros; congruence).
  assert (E2 : mv sw12 i a = mv sw12 a i) by (apply moves_inv; auto; apply inv_cases; auto; intros; cbn; split; intros E; injection E; intros; congruence).
  assert (E3 : mv sw02 i a = mv sw02 a i) by (apply moves_inv; auto; apply inv_cases; auto; intros; cbn; split; intros E; injection E; intros; congruence).
  assert (E4 : mv cyc i a = mv cyc' a i) by (apply moves_inv; auto; apply inv_cases; auto; intros; cbn; split; intros E; injection E; intros; congruence).
  assert (E5 : mv cyc' i a = mv cyc a i) by (apply moves_inv; auto; apply inv_cases; auto; intros; cbn; split; intros E; injection E; intros; congruence).
  rewrite E1, E2, E3, E4, E5. clear E1 E2 E3 E4 E5.
  assert (S : forall x y, cj (x - y) = cj x - cj y).
  { intros x y. transitivity (cj (x + kopp y)); [f_equal; ring|]. rewrite cj_add, (Su3Num.cj_opp k0 k1 kadd kmul ksub kopp Kr cj cj_add). ring. }
  rewrite !cj_add, !cj_mul, !cj_add, S, !cj_mul, HJ, HK, Hh, cj_im. unfold moves. rewrite !cj_dir. ring. Qed.
End N.
