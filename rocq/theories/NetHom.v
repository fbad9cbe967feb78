(** Values of networks under homomorphisms; networks of Gaussian integers as networks of Gaussian rationals. *)
From Verif Require Import Base Tensor TensorLemmas NetSpec CornersExamples CorrSpec CorrC4vSpec GaussQ.
From Coq Require Import Ring QArith Qcanon.
Open Scope list_scope.
Open Scope nat_scope.

Section Hom.
Context {K L : Type} (z o : K) (add mul : K -> K -> K) (z' o' : L) (add' mul' : L -> L -> L) (h : K -> L).
Hypotheses (Hz : h z = z') (Ho : h o = o') (Ha : forall x y, h (add x y) = add' (h x) (h y)) (Hm : forall x y, h (mul x y) = mul' (h x) (h y)).
Definition hnet (N : @network K) : @network L := map (fun p => (tmap h (fst p), snd p)) N.
Lemma entry_hom t ix : entry z' (tmap h t) ix = h (entry z t ix).
Proof. unfold entry. rewrite tget_tmap. destruct (tget t ix); [reflexivity|]. now rewrite <- Hz. Qed.
Lemma product_hom D N s : product D z' o' mul' (hnet N) s = h (product D z o mul N s).
Proof. unfold product, hnet. rewrite map_map. induction N as [|p N IH]; cbn [map prod_list fold_right]; [now rewrite <- Ho|].
  cbn [fst snd]. rewrite Hm, entry_hom. f_equal. exact IH. Qed.
Lemma sum_hom D ls : forall G G' s, (forall s, G' s = h (G s)) -> sum_over D z' add' ls G' s = h (sum_over D z add ls G s).
Proof. induction ls as [|l ls IH]; intros G G' s HG; cbn [sum_over]; [apply HG|].
  induction (seq 0 (D l)) as [|i q IHq]; cbn [map sum_list fold_right]; [now rewrite <- Hz|].
  rewrite Ha, (IH G G' _ HG). f_equal. exact IHq. Qed.
Lemma bonds_hom N : net_bonds (hnet N) = net_bonds N.
Proof. unfold net_bonds, hnet. f_equal. induction N as [|p N IH]; [reflexivity|]. cbn [map flat_map snd]. now rewrite IH. Qed.
Lemma value_hom D N : value D z' o' add' mul' (hnet N) = h (value D z o add mul N).
Proof. unfold value, inner. rewrite bonds_hom. apply sum_hom. intros s. apply product_hom. Qed.
End Hom.

(** bonds of dimension 1 need not be summed *)
Section Slim.
Context {K : Type} (z o : K) (add mul : K -> K -> K).
Hypothesis SR : semi_ring_theory z o add mul eq.
Add Ring KR : SR.
Definition slim (D : nat -> nat) (ls : list nat) : list nat := filter (fun l => negb (D l =? 1)) ls.
Lemma sum_slim D G : (forall s s', (forall k, s k = s' k) -> G s = G s') -> forall ls s, (forall l, In l ls -> D l = 1 -> s l = 0) ->
  sum_over D z add ls G s = sum_over D z add (slim D ls) G s.
Proof. intros HG. assert (X : forall ls s s', (forall k, s k = s' k) -> sum_over D z add ls G s = sum_over D z add ls G s').
  { induction ls as [|l ls IH]; intros s s' H; cbn [sum_over]; [now apply HG|]. f_equal. apply map_ext. intros i. apply IH. intros k. unfold upd. destruct (k =? l); [reflexivity|apply H]. }
  induction ls as [|l ls IH]; intros s Hs; [reflexivity|]. cbn [slim filter]. destruct (D l =? 1) eqn:E.
  - cbn [negb]. apply Nat.eqb_eq in E. cbn [sum_over]. rewrite E. cbn [seq map sum_list fold_right]. fold (slim D ls). rewrite <- IH by (intros k Hk; apply Hs; now right).
    rewrite (X ls (upd s l 0) s); [ring|]. intros k. unfold upd. destruct (k =? l) eqn:F; [|reflexivity]. apply Nat.eqb_eq in F. subst k. symmetry. apply Hs; [now left|exact E].
  - cbn [negb sum_over]. f_equal. apply map_ext. intros i. apply IH. intros k Hk H1. unfold upd. destruct (k =? l) eqn:F; [|apply Hs; [now right|exact H1]].
    apply Nat.eqb_eq in F. subst k. apply Nat.eqb_neq in E. now contradiction E. Qed.
Lemma lval_same D s s' t : (forall k, s k = s' k) -> lval D s t = lval D s' t.
Proof. intros H. induction t as [l|x IHx y IHy]; cbn [lval]; [apply H|now rewrite IHx, IHy]. Qed.
Definition slim_value (D : nat -> nat) (N : @network K) : K := sum_over D z add (slim D (inner N [])) (product D z o mul N) (fun _ => 0).
Lemma value_slim D N : value D z o add mul N = slim_value D N.
Proof. apply sum_slim; [|reflexivity]. intros s s' H. unfold product. f_equal. apply map_ext. intros p. f_equal. apply map_ext. intros t. now apply lval_same. Qed.
End Slim.

Notation gi := ExtendProofs2.gi.
Definition gz (p : gi) : gq := gq_int (fst p) (snd p).
Lemma qz_add a b : Q2Qc (inject_Z (a + b)) = (Q2Qc (inject_Z a) + Q2Qc (inject_Z b))%Qc.
Proof. apply Qc_is_canon. cbn [this Q2Qc Qcplus Qcmult Qcopp]. rewrite !Qred_correct. now rewrite inject_Z_plus. Qed.
Lemma qz_mul a b : Q2Qc (inject_Z (a * b)) = (Q2Qc (inject_Z a) * Q2Qc (inject_Z b))%Qc.
Proof. apply Qc_is_canon. cbn [this Q2Qc Qcplus Qcmult Qcopp]. rewrite !Qred_correct. now rewrite inject_Z_mult. Qed.
Lemma qz_opp a : Q2Qc (inject_Z (- a)) = (- Q2Qc (inject_Z a))%Qc.
Proof. apply Qc_is_canon. cbn [this Q2Qc Qcplus Qcmult Qcopp]. rewrite !Qred_correct. now rewrite inject_Z_opp. Qed.
Lemma gz_add x y : gz (gadd x y) = gq_add (gz x) (gz y).
Proof. destruct x, y. unfold gz, gq_int, gq_add, ExtendProofs2.gadd. cbn [fst snd]. now rewrite !qz_add. Qed.
Lemma gz_mul x y : gz (gmul x y) = gq_mul (gz x) (gz y).
Proof. destruct x, y. unfold gz, gq_int, gq_mul, ExtendProofs2.gmul. cbn [fst snd]. unfold Z.sub, Qcminus. now rewrite !qz_add, !qz_opp, !qz_mul. Qed.
Lemma gz_cj x : gz (gconj x) = gq_cj (gz x).
Proof. destruct x. unfold gz, gq_int, gq_cj, ExtendProofs2.gconj. cbn [fst snd]. now rewrite qz_opp. Qed.
Lemma gz_0 : gz g0 = gq_z.
Proof. apply gq_eqb_true. reflexivity. Qed.
Lemma gz_1 : gz g1 = gq_o.
Proof. apply gq_eqb_true. reflexivity. Qed.
Lemma qz_inj a b : Q2Qc (inject_Z a) = Q2Qc (inject_Z b) -> a = b.
Proof. intros H. apply Q2Qc_eq_iff in H. unfold Qeq in H. cbn in H. lia. Qed.
Lemma gz_inj x y : gz x = gz y -> x = y.
Proof. destruct x, y. unfold gz, gq_int. cbn [fst snd]. intros H. f_equal; apply qz_inj; [exact (f_equal fst H)|exact (f_equal snd H)]. Qed.
Definition znet := hnet gz.
Lemma value_gz D N : value D gq_z gq_o gq_add gq_mul (znet N) = gz (value D g0 g1 gadd gmul N).
Proof. exact (value_hom g0 g1 gadd gmul gq_z gq_o gq_add gq_mul gz gz_0 gz_1 gz_add gz_mul D N). Qed.
Lemma tmap_cj t : tmap gq_cj (tmap gz t) = tmap gz (tmap gconj t).
Proof. destruct t as [d l]. unfold tmap. cbn [tdims tdata]. f_equal. rewrite !map_map. apply map_ext. intros x. symmetry. apply gz_cj. Qed.

Section Strips.
Variables (C T a : tensor gi).
Notation h_ := (tmap gz).
Lemma column_gz h b op : column gq_cj (h_ T) (h_ a) h b op = znet (column gconj T a h b op).
Proof. unfold column, znet, hnet. cbn [map fst snd]. rewrite map_app. cbn [map fst snd]. f_equal. f_equal.
  induction (seq 0 h) as [|j l IH]; [reflexivity|]. cbn [flat_map app map fst snd]. rewrite IH, tmap_cj. reflexivity. Qed.
Lemma left_gz h b : left_end (h_ C) (h_ T) h b = znet (left_end C T h b).
Proof. unfold left_end, znet, hnet. cbn [map fst snd]. rewrite map_app, map_map. reflexivity. Qed.
Lemma right_gz h b : right_end (h_ C) (h_ T) h b = znet (right_end C T h b).
Proof. unfold right_end, znet, hnet. cbn [map fst snd]. rewrite map_app, map_map. reflexivity. Qed.
Definition rl_gz (rl : option (tensor gi * tensor gi)) := match rl with None => None | Some (l, r) => Some (h_ l, h_ r) end.
Lemma columns_gz h rl n op : columns gq_cj (h_ C) (h_ T) (h_ a) h (rl_gz rl) n op = znet (columns gconj C T a h rl n op).
Proof. unfold columns. unfold znet, hnet. rewrite !map_app. f_equal; [|f_equal].
  - destruct rl as [[l r]|]; [reflexivity|]. apply left_gz.
  - induction (seq 0 n) as [|i q IH]; [reflexivity|]. cbn [flat_map]. rewrite map_app, IH. f_equal. apply column_gz.
  - destruct rl as [[l r]|]; [reflexivity|]. apply right_gz. Qed.
Lemma norm_gz h rl n : norm_of gq_cj (h_ C) (h_ T) (h_ a) h (rl_gz rl) n = znet (norm_of gconj C T a h rl n).
Proof. apply columns_gz. Qed.
Lemma sites_gz rl n O1 O2 : sites_net gq_cj (h_ C) (h_ T) (h_ a) (rl_gz rl) n (h_ O1) (h_ O2) = znet (sites_net gconj C T a rl n O1 O2).
Proof. unfold sites_net. rewrite columns_gz. unfold znet, hnet. now rewrite map_app. Qed.
Lemma row_gz n O1 O2 : row_net gq_cj (h_ C) (h_ T) (h_ a) n (h_ O1) (h_ O2) = znet (row_net gconj C T a n O1 O2).
Proof. unfold row_net. rewrite (columns_gz 1 None). unfold znet, hnet. now rewrite map_app. Qed.
Lemma column_net_gz n O1 O2 : column_net gq_cj (h_ C) (h_ T) (h_ a) n (h_ O1) (h_ O2) = znet (column_net gconj C T a n O1 O2).
Proof. unfold column_net. rewrite (columns_gz 2 None). unfold znet, hnet. now rewrite map_app. Qed.
End Strips.
Lemma nonzero_gz D N (N' : @network gq) : N' = znet N -> slim_value g0 g1 gadd gmul D N <> g0 -> value D gq_z gq_o gq_add gq_mul N' <> gq_z.
Proof. intros -> H E. apply H. apply gz_inj. now rewrite <- (value_slim _ _ _ _ gi_ring), <- value_gz, gz_0. Qed.
Lemma is_gz D N (N' : @network gq) v : N' = znet N -> slim_value g0 g1 gadd gmul D N = v -> value D gq_z gq_o gq_add gq_mul N' = gz v.
Proof. intros -> <-. rewrite <- (value_slim _ _ _ _ gi_ring). apply value_gz. Qed.
