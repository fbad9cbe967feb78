(** The model of su3.py in exact arithmetic and in any ring. *)
From Verif Require Import Base BaseLemmas Tensor TensorLemmas Net Plaq Su3 Su3Spec Su3Num.
From Coq Require Import Ring.
Open Scope list_scope.
Open Scope nat_scope.
Open Scope res_scope.

Section Hom.
Context {K L : Type} (z o : K) (add mul sub : K -> K -> K) (opp : K -> K) (z' o' : L) (add' mul' sub' : L -> L -> L) (opp' : L -> L) (h : K -> L).
Hypotheses (Hz : h z = z') (Ho : h o = o') (Ha : forall x y, h (add x y) = add' (h x) (h y)) (Hm : forall x y, h (mul x y) = mul' (h x) (h y))
  (Hs : forall x y, h (sub x y) = sub' (h x) (h y)) (Hp : forall x, h (opp x) = opp' (h x)).
Lemma tmap_build dims f : tmap h (tbuild dims f) = tbuild dims (fun ix => h (f ix)).
Proof. unfold tmap, tbuild. cbn. now rewrite map_map. Qed.
Lemma build_ext {A} dims (f g : list nat -> A) : (forall ix, In ix (indices dims) -> f ix = g ix) -> tbuild dims f = tbuild dims g.
Proof. intros H. unfold tbuild. f_equal. now apply map_ext_in. Qed.
Lemma el_hom t ix : el z' (tmap h t) ix = h (el z t ix).
Proof. unfold el. rewrite tget_tmap. destruct (tget t ix); [reflexivity|]. now rewrite <- Hz. Qed.
Lemma tel_hom t ix : tel z' (tmap h t) ix = h (tel z t ix).
Proof. exact (el_hom t ix). Qed.
Lemma sum_hom_l {I} (f : I -> K) (l : list I) : fold_right add' z' (map (fun i => h (f i)) l) = h (fold_right add z (map f l)).
Proof. induction l as [|i l IH]; cbn; [now rewrite <- Hz|]. now rewrite Ha, IH. Qed.
Lemma prod_hom_l {I} (f : I -> K) (l : list I) : fold_right mul' o' (map (fun i => h (f i)) l) = h (fold_right mul o (map f l)).
Proof. induction l as [|i l IH]; cbn; [now rewrite <- Ho|]. now rewrite Hm, IH. Qed.
Lemma zip_hom f f' a b : (forall x y, h (f x y) = f' (h x) (h y)) -> tzip f' (tmap h a) (tmap h b) = tmap h (tzip f a b).
Proof. intros Hf. unfold tzip, tmap. cbn. f_equal. rewrite map_map.
  generalize (tdata b). induction (tdata a) as [|x l IH]; intros [|y m]; cbn; try reflexivity. now rewrite Hf, IH. Qed.
Lemma tadd_hom a b : tadd add' (tmap h a) (tmap h b) = tmap h (tadd add a b). Proof. now apply zip_hom. Qed.
Lemma tsub_hom a b : tsub sub' (tmap h a) (tmap h b) = tmap h (tsub sub a b). Proof. now apply zip_hom. Qed.
Lemma tscl_hom c a : tscl mul' (h c) (tmap h a) = tmap h (tscl mul c a).
Proof. unfold tscl, tmap. cbn. f_equal. rewrite !map_map. apply map_ext. intros x. now rewrite Hm. Qed.
Lemma forallb_map {A B} (f : B -> bool) (g : A -> B) l : forallb f (map g l) = forallb (fun a => f (g a)) l.
Proof. induction l; cbn; congruence. Qed.
Definition hop (op : tensor K * list nat) : tensor L * list nat := (tmap h (fst op), snd op).
Definition hres (r : res (tensor K)) : res (tensor L) := match r with Ok t => Ok (tmap h t) | Err e => Err e end.
Lemma labels_hom ops : label_dims (map hop ops) = label_dims ops.
Proof. unfold label_dims. rewrite !flat_map_concat_map, map_map. reflexivity. Qed.
Lemma snds_hom ops : flat_map snd (map hop ops) = flat_map snd ops.
Proof. rewrite !flat_map_concat_map, map_map. reflexivity. Qed.
Lemma einsum_hom ops out : einsum z' o' add' mul' (map hop ops) out = hres (einsum z o add mul ops out).
Proof. unfold einsum, summed. rewrite labels_hom, snds_hom. rewrite forallb_map. cbn [hop fst snd tmap tdims].
  destruct (_ && _ && _ && _); [|reflexivity]. cbn [hres]. f_equal. rewrite tmap_build. apply build_ext. intros ix _.
  unfold nsum. rewrite <- sum_hom_l. f_equal. apply map_ext. intros jx. unfold nprod. rewrite map_map. cbn [hop fst snd].
  rewrite <- prod_hom_l. f_equal. apply map_ext. intros op. apply tel_hom. Qed.
Definition hent (l : list (nat * nat * K)) : list (nat * nat * L) := map (fun e => (fst e, h (snd e))) l.
Lemma entries_hom l : entries z' (hent l) = tmap h (entries z l).
Proof. unfold entries. rewrite tmap_build. apply build_ext. intros ix _. destruct ix as [|i [|j [|? ?]]]; try (now rewrite <- Hz).
  induction l as [|[k v] l IH]; cbn [hent map dget fst snd]; [now rewrite <- Hz|]. fold (hent l). destruct (eq_dec (i, j) k); [reflexivity|exact IH]. Qed.
Lemma stack_hom rk rl b l : (forall x, h (rk x) = rl (h x)) -> stack z' rl b (map (tmap h) l) = tmap h (stack z rk b l).
Proof. intros Hr. unfold stack. rewrite tmap_build. apply build_ext. intros ix _. destruct ix as [|k [|i [|j [|? ?]]]]; try (now rewrite <- Hz).
  rewrite nth_error_map. destruct (nth_error l k) as [t|]; cbn [option_map]; [|now rewrite <- Hz]. rewrite el_hom. destruct b; [reflexivity|]. symmetry. apply Hr. Qed.
Lemma mm3_hom A B : mm3 z' add' mul' (tmap h A) (tmap h B) = tmap h (mm3 z add mul A B).
Proof. unfold mm3. rewrite tmap_build. apply build_ext. intros ix _. destruct ix as [|i [|j [|? ?]]]; try (now rewrite <- Hz).
  unfold ksum. rewrite <- sum_hom_l. f_equal. apply map_ext. intros k. now rewrite Hm, !el_hom. Qed.
Lemma trace3_hom A : trace3 z' add' (tmap h A) = h (trace3 z add A).
Proof. unfold trace3, ksum. rewrite <- sum_hom_l. f_equal. apply map_ext. intros k. apply el_hom. Qed.
Lemma d_hom A B C : d_coef z' o' add' mul' (tmap h A) (tmap h B) (tmap h C) = h (d_coef z o add mul A B C).
Proof. unfold d_coef, two. rewrite Hm, Ha, Ho. f_equal. rewrite !mm3_hom, tadd_hom, mm3_hom. apply trace3_hom. Qed.
End Hom.
