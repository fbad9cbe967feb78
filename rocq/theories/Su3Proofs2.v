(** The algebra su(3), the Casimir operators and the permutations. *)
From Verif Require Import Base BaseLemmas Tensor TensorLemmas Net Plaq Su3 Su3Spec Su3Num Su3Proofs.
From Coq Require Import Ring.
Open Scope list_scope.
Open Scope nat_scope.
Open Scope res_scope.

Notation genF := (gen f0 f1 fadd fopp fhalf fthird).
Notation gmF := (gell_mann f0 f1 fadd fmul fsub fopp fhalf fthird fim fs3 fre).
Notation cwF := (cartan_weyl f0 f1 fadd fopp fhalf fthird fre).
Notation c1F := (c1 f0 f1 fadd fmul fopp fhalf fthird).
Notation fsF := (fs f0 f1 fadd fmul fsub fopp fhalf fthird fim fs3).
Notation perm2F := (perm2 f0 f1 fadd fmul fopp fhalf fthird).

(** the Gell-Mann matrices in exact arithmetic *)
Definition gT : tensor fnum := Eval vm_compute in gmF true.
Lemma gT_eq : gmF true = gT.
Proof. vm_compute. reflexivity. Qed.
Ltac rng := unfold in_range; repeat (apply Forall2_cons; [assumption|]); apply Forall2_nil.
Section S.
Context {K : Type} (k0 k1 : K) (kadd kmul ksub : K -> K -> K) (kopp : K -> K) (half third im s3 : K).
Hypothesis Kr : ring_theory k0 k1 kadd kmul ksub kopp (@eq K).
Add Ring Kring : Kr.
Variables (cj re : K -> K) (ph : fnum -> K).
Hypotheses (p0 : ph f0 = k0) (p1 : ph f1 = k1) (pa : forall x y, ph (fadd x y) = kadd (ph x) (ph y)) (pm : forall x y, ph (fmul x y) = kmul (ph x) (ph y))
  (ps : forall x y, ph (fsub x y) = ksub (ph x) (ph y)) (po : forall x, ph (fopp x) = kopp (ph x)) (ph2 : ph fhalf = half) (ph3 : ph fthird = third)
  (pim : ph fim = im) (ps3 : ph fs3 = s3) (pcj : forall x, ph (fcj x) = cj (ph x)) (pre : forall x, ph (fre x) = re (ph x))
  (feq_phi : forall x y, feq x y = true -> ph x = ph y).
Notation genK := (gen k0 k1 kadd kopp half third).
Notation gmK := (gell_mann k0 k1 kadd kmul ksub kopp half third im s3 re).
Notation cwK := (cartan_weyl k0 k1 kadd kopp half third re).
Notation c1K := (c1 k0 k1 kadd kmul kopp half third).
Notation c2K := (c2 k0 k1 kadd kmul ksub kopp half third im s3).
Notation fsK := (fs k0 k1 kadd kmul ksub kopp half third im s3).
Notation perm2K := (perm2 k0 k1 kadd kmul kopp half third).
Lemma gen_phi op : genK op = tmap ph (genF op).
Proof. destruct op; unfold gen; rewrite <- (entries_hom f0 k0 ph p0); cbn [hent map fst snd]; rewrite ?po, ?pa, ?p1, ?ph2, ?ph3; reflexivity. Qed.
Lemma cw_phi b : cwK b = tmap ph (cwF b).
Proof. unfold cartan_weyl. rewrite <- (stack_hom f0 k0 ph p0 fre re) by exact pre. f_equal. rewrite map_map. apply map_ext. apply gen_phi. Qed.
Notation tA := (tadd_hom fadd kadd ph pa).
Notation tS := (tsub_hom fsub ksub ph ps).
Notation tM := (tscl_hom fmul kmul ph pm).
Lemma fs_phi : fsK = map (tmap ph) fsF.
Proof. unfold fs. cbn [map]. rewrite !gen_phi. rewrite !tA, !tS. rewrite <- ph2, <- pim, <- ps3. rewrite <- !pm, <- !po, !tM. reflexivity. Qed.
Lemma lam_phi : lambdas k0 k1 kadd kmul ksub kopp half third im s3 = map (tmap ph) (lambdas f0 f1 fadd fmul fsub fopp fhalf fthird fim fs3).
Proof. unfold lambdas, two. cbn [map]. rewrite !gen_phi. rewrite !tA, !tS. rewrite <- p1, <- pim, <- ps3. rewrite <- !pa, <- !po, !tM. reflexivity. Qed.
Lemma gm_phi b : gmK b = tmap ph (gmF b).
Proof. unfold gell_mann. rewrite lam_phi. apply (stack_hom f0 k0 ph p0 fre re). exact pre. Qed.
Notation eH := (einsum_hom f0 f1 fadd fmul k0 k1 kadd kmul ph p0 p1 pa pm).
Lemma kron_phi A B : kron3 k0 k1 kadd kmul (tmap ph A) (tmap ph B) = hres ph (kron3 f0 f1 fadd fmul A B).
Proof. unfold kron3. apply (eH [(A, [0; 1]); (B, [2; 3])]). Qed.
Lemma bind_hres {A} (r : res (tensor fnum)) (f : tensor K -> res A) : (x <- hres ph r ;; f x) = (x <- r ;; f (tmap ph x)).
Proof. destruct r; reflexivity. Qed.
Lemma hres_bind {A} (r : res A) (f : A -> res (tensor fnum)) : hres ph (x <- r ;; f x) = (x <- r ;; hres ph (f x)).
Proof. destruct r; reflexivity. Qed.
Lemma bind_ext {A B} (r : res A) (f g : A -> res B) : (forall x, f x = g x) -> bind r f = bind r g.
Proof. intros H. destruct r; cbn; [apply H|reflexivity]. Qed.
Lemma c1_phi : c1K = hres ph c1F.
Proof. unfold c1. rewrite !gen_phi. rewrite !kron_phi. repeat (rewrite bind_hres, hres_bind; apply bind_ext; intros ?). cbn [hres].
  rewrite <- ph2. rewrite <- !pm, <- !pa, !tA, !tM, !tA. reflexivity. Qed.
Lemma eye_phi n d : eye_view k0 k1 n d = hres ph (eye_view f0 f1 n d).
Proof. unfold eye_view, view, treshape. set (a := tbuild [n; n] _). set (b := tbuild [n; n] _).
  assert (E : a = tmap ph b). { unfold b. rewrite tmap_build. apply build_ext. intros ix _. destruct ix as [|i [|j [|? ?]]]; rewrite ?p0; try reflexivity. now destruct (i =? j); rewrite ?p0, ?p1. }
  rewrite E. cbn [tmap tdata]. rewrite map_length. destruct (_ =? _); reflexivity. Qed.
Lemma perm2_phi : perm2K = hres ph perm2F.
Proof. unfold perm2. rewrite c1_phi, eye_phi. repeat (rewrite bind_hres, hres_bind; apply bind_ext; intros ?). cbn [hres]. unfold two.
  rewrite <- p1, <- ph3. rewrite <- !pa, !tM, tA. reflexivity. Qed.

(** equality of elements decided in exact arithmetic *)
Lemma check1 n (f g : nat -> fnum) : forallb (fun i => feq (f i) (g i)) (seq 0 n) = true -> forall i, i < n -> ph (f i) = ph (g i).
Proof. intros H i Hi. rewrite forallb_forall in H. apply feq_phi, H. apply in_seq. lia. Qed.
Lemma check_ix dims (f g : list nat -> fnum) : forallb (fun ix => feq (f ix) (g ix)) (indices dims) = true -> forall ix, in_range dims ix -> ph (f ix) = ph (g ix).
Proof. intros H ix Hix. rewrite forallb_forall in H. apply feq_phi, H. now apply In_indices. Qed.
Lemma total_phi n (f : nat -> fnum) : total k0 kadd n (fun i => ph (f i)) = ph (total f0 fadd n f).
Proof. unfold total. apply (sum_hom_l f0 fadd k0 kadd ph p0 pa). Qed.
Lemma total_ext n (f g : nat -> K) : (forall i, i < n -> f i = g i) -> total k0 kadd n f = total k0 kadd n g.
Proof. intros H. unfold total. f_equal. apply map_ext_in. intros i Hi. apply H. apply in_seq in Hi. lia. Qed.
Lemma f_phi a b c : f_const k0 k1 kadd kmul kopp half s3 a b c = ph (f_const f0 f1 fadd fmul fopp fhalf fs3 a b c).
Proof. unfold f_const. rewrite <- (sum_hom_l f0 fadd k0 kadd ph p0 pa).
  assert (E : f_table k1 kmul kopp half s3 = map (fun e => (fst e, ph (snd e))) (f_table f1 fmul fopp fhalf fs3)).
  { unfold f_table. cbn [map fst snd]. rewrite ?pm, ?po, ?p1, ?ph2, ?ps3. reflexivity. }
  rewrite E, map_map. f_equal. apply map_ext. intros e. cbn [fst snd]. rewrite pm. f_equal. unfold antisym.
  destruct (_ || _ || _); [now rewrite p1|]. destruct (_ || _ || _); [now rewrite po, p1|now rewrite p0]. Qed.
Definition gF a i j := el f0 gT [a; i; j].
Lemma g_phi a i j : el k0 (gmK true) [a; i; j] = ph (gF a i j).
Proof. rewrite gm_phi, gT_eq. apply (el_hom f0 k0 ph p0). Qed.
Lemma mprod_phi a b i j : mprod k0 kadd kmul (fun i j => el k0 (gmK true) [a; i; j]) (fun i j => el k0 (gmK true) [b; i; j]) i j = ph (mprod f0 fadd fmul (gF a) (gF b) i j).
Proof. unfold mprod. rewrite <- total_phi. apply total_ext. intros k _. now rewrite !g_phi, pm. Qed.
Lemma in_range3 a b c x y w : a < x -> b < y -> c < w -> in_range [x; y; w] [a; b; c].
Proof. intros. rng. Qed.
Lemma su3_ok : tdims (gmK true) = [8; 3; 3] /\ is_su3 k0 k1 kadd kmul ksub kopp half im s3 cj (fun a i j => el k0 (gmK true) [a; i; j]).
Proof. split; [reflexivity|]. split; [|split; [|split]].
  - intros a i j Ha Hi Hj. rewrite !g_phi, <- pcj.
    apply (check_ix [8; 3; 3] (fun ix => gF (nth 0 ix 0) (nth 1 ix 0) (nth 2 ix 0)) (fun ix => fcj (gF (nth 0 ix 0) (nth 2 ix 0) (nth 1 ix 0)))) with (ix := [a; i; j]).
    + vm_compute. reflexivity. + now apply in_range3.
  - intros a Ha. unfold mtrace. rewrite (total_ext 3 _ (fun i => ph (gF a i i))) by (intros; apply g_phi). rewrite total_phi, <- p0.
    apply (check1 8 (fun a => total f0 fadd 3 (fun i => gF a i i)) (fun _ => f0)); [vm_compute; reflexivity|exact Ha].
  - intros a b Ha Hb. unfold mtrace. rewrite (total_ext 3 _ (fun i => ph (mprod f0 fadd fmul (gF a) (gF b) i i))) by (intros; apply mprod_phi). rewrite total_phi.
    transitivity (ph (if a =? b then fadd f1 f1 else f0)); [|destruct (a =? b); now rewrite ?pa, ?p1, ?p0].
    apply (check_ix [8; 8] (fun ix => total f0 fadd 3 (fun i => mprod f0 fadd fmul (gF (nth 0 ix 0)) (gF (nth 1 ix 0)) i i)) (fun ix => if nth 0 ix 0 =? nth 1 ix 0 then fadd f1 f1 else f0)) with (ix := [a; b]).
    + vm_compute. reflexivity. + rng.
  - intros a b i j Ha Hb Hi Hj. rewrite !mprod_phi, <- ps.
    rewrite (total_ext 8 _ (fun c => ph (fmul (f_const f0 f1 fadd fmul fopp fhalf fs3 a b c) (gF c i j)))) by (intros; now rewrite pm, f_phi, g_phi).
    rewrite total_phi. rewrite <- p1, <- pim, <- pa, <- !pm.
    apply (check_ix [8; 8; 3; 3] (fun ix => fsub (mprod f0 fadd fmul (gF (nth 0 ix 0)) (gF (nth 1 ix 0)) (nth 2 ix 0) (nth 3 ix 0)) (mprod f0 fadd fmul (gF (nth 1 ix 0)) (gF (nth 0 ix 0)) (nth 2 ix 0) (nth 3 ix 0)))
      (fun ix => fmul (fmul (fadd f1 f1) fim) (total f0 fadd 8 (fun c => fmul (f_const f0 f1 fadd fmul fopp fhalf fs3 (nth 0 ix 0) (nth 1 ix 0) c) (gF c (nth 2 ix 0) (nth 3 ix 0)))))) with (ix := [a; b; i; j]).
    + vm_compute. reflexivity. + rng. Qed.
End S.
