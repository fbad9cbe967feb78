(** Substitution, renaming and scaling of contractions. *)
From Verif Require Import Base BaseLemmas Tensor TensorLemmas Net NetSpec NetProofs NetProofs2 NetProofs3 Corners CornersSpec CornersProofs CorrSpec.
From Coq Require Import Ring Permutation.
Open Scope list_scope.
Open Scope nat_scope.

Definition nvars {K} (net : @network K) : list nat := flat_map (fun f => flat_map bonds (snd f)) net.
Lemma In_inner {K} (net : @network K) out l : In l (inner net out) <-> In l (nvars net) /\ ~ In l (flat_map bonds out).
Proof. unfold inner, net_bonds. rewrite filter_In, nodup_In. unfold nvars. destruct (in_dec _ _ _); intuition discriminate. Qed.
Lemma NoDup_inner {K} (net : @network K) out : NoDup (inner net out).
Proof. unfold inner, net_bonds. apply NoDup_filter, NoDup_nodup. Qed.
Lemma nvars_app {K} (n1 n2 : @network K) : nvars (n1 ++ n2) = nvars n1 ++ nvars n2.
Proof. unfold nvars. apply flat_map_app. Qed.
Lemma In_nvars_perm {K} (n1 n2 : @network K) l : Permutation n1 n2 -> In l (nvars n1) -> In l (nvars n2).
Proof. intros P. unfold nvars. rewrite !in_flat_map. intros (f & Hf & Hl). exists f. split; [now apply (Permutation_in _ P)|exact Hl]. Qed.
Lemma perm_of_sets (l1 l2 : list nat) : NoDup l1 -> NoDup l2 -> (forall k, In k l1 <-> In k l2) -> Permutation l1 l2.
Proof. intros N1 N2 H. apply NoDup_Permutation; assumption. Qed.
Lemma inner_perm {K} (n1 n2 : @network K) out : Permutation n1 n2 -> Permutation (inner n1 out) (inner n2 out).
Proof. intros P. apply perm_of_sets; [apply NoDup_inner|apply NoDup_inner|]. intros k. rewrite !In_inner.
  split; intros [H1 H2]; (split; [|exact H2]); [exact (In_nvars_perm _ _ _ P H1)|exact (In_nvars_perm _ _ _ (Permutation_sym P) H1)]. Qed.
Lemma fits_app {K} D (n1 n2 : @network K) : fits D (n1 ++ n2) <-> fits D n1 /\ fits D n2.
Proof. unfold fits. apply Forall_app. Qed.

Section G.
Context {K : Type} (z o : K) (add mul : K -> K -> K).
Hypothesis SR : semi_ring_theory z o add mul eq.
Add Ring Kring : SR.
Notation ten := (tensor K).
Notation network := (@network K).

Section AtD.
Variable D : nat -> nat.
Notation isc := (is_contraction D z o add mul).
Notation product := (product D z o mul).
Notation sum_over := (sum_over D z add).
Notation lval := (lval D).
Notation ldim := (ldim D).
Notation value := (value D z o add mul).

Lemma product_app n1 n2 s : product (n1 ++ n2) s = mul (product n1 s) (product n2 s).
Proof. unfold NetSpec.product. rewrite map_app. apply (pl_app z o add mul SR). Qed.
Lemma product_dep net : dep (nvars net) (product net).
Proof. intros s s' E. unfold NetSpec.product. f_equal. apply map_ext_in. intros f Hf. f_equal. apply map_ext_in.
  intros t Ht. apply lval_ext. intros k Hk. apply E. unfold nvars. apply in_flat_map. exists f. split; [exact Hf|].
  apply in_flat_map. exists t. split; assumption. Qed.
Lemma product_perm n1 n2 s : Permutation n1 n2 -> product n1 s = product n2 s.
Proof. intros P. unfold NetSpec.product. apply (pl_perm z o add mul SR). now apply Permutation_map. Qed.
Lemma isc_perm n1 n2 out M : Permutation n1 n2 -> isc n1 out M -> isc n2 out M.
Proof. intros P (W & Hd & HV). split; [exact W|]. split; [exact Hd|]. intros s Hs. rewrite HV by exact Hs. f_equal.
  rewrite (so_perm z o add mul SR D _ _ (nvars n1) _ (inner_perm _ _ _ P) (product_dep n1)).
  apply so_ext. intros s' _. now apply product_perm. Qed.

(** sums over the bonds of the inner network, and over those of the outer one *)
Lemma sub_perm (N R : network) outs out E : incl (flat_map bonds outs) (nvars N) ->
  (forall l, In l (inner N outs) -> ~ In l (nvars R) /\ ~ In l (flat_map bonds out)) ->
  Permutation (inner ((E, outs) :: R) out ++ inner N outs) (inner (N ++ R) out).
Proof. intros I1 I2. apply perm_of_sets.
  - apply NoDup_app_intro; [apply NoDup_inner|apply NoDup_inner|]. intros k Hk Hk'. destruct (I2 k Hk') as [J1 J2].
    apply In_inner in Hk, Hk'. destruct Hk as [Hk _], Hk' as [_ Hk']. unfold nvars in Hk. cbn in Hk. apply in_app_iff in Hk.
    destruct Hk as [Hk|Hk]; [contradiction|]. now apply J1.
  - apply NoDup_inner.
  - intros k. rewrite in_app_iff, !In_inner, nvars_app, in_app_iff. unfold nvars at 1. cbn. rewrite in_app_iff. fold (nvars R). split.
    + intros [[[H|H] Ho]|[H Ho]]; [split; [left; now apply I1|exact Ho]|split; [now right|exact Ho]|].
      split; [now left|]. apply (I2 k). apply In_inner. split; assumption.
    + intros [[H|H] Ho].
      * destruct (in_dec Nat.eq_dec k (flat_map bonds outs)) as [Hi|Hi]; [left; split; [now left|exact Ho]|right; split; assumption].
      * left. split; [now right|exact Ho]. Qed.
Lemma sub_sum (N R : network) outs out E : isc N outs E -> incl (flat_map bonds outs) (nvars N) ->
  (forall l, In l (inner N outs) -> ~ In l (nvars R) /\ ~ In l (flat_map bonds out)) ->
  forall s, (forall l, In l (flat_map bonds out) -> s l < D l) ->
  sum_over (inner ((E, outs) :: R) out) (product ((E, outs) :: R)) s = sum_over (inner (N ++ R) out) (product (N ++ R)) s.
Proof. intros (W & Hd & HV) I1 I2 s Hs.
  rewrite <- (so_perm z o add mul SR D _ _ _ _ (sub_perm N R outs out E I1 I2) (product_dep (N ++ R))).
  rewrite so_app. apply so_ext. intros s' [A B].
  change (product ((E, outs) :: R) s') with (mul (entry z E (map (lval s') outs)) (product R s')).
  unfold entry. rewrite HV.
  2:{ intros l Hl. destruct (in_dec Nat.eq_dec l (inner ((E, outs) :: R) out)) as [Hi|Hi]; [now apply B|]. rewrite A by exact Hi. apply Hs.
      destruct (in_dec Nat.eq_dec l (flat_map bonds out)) as [Ho|Ho]; [exact Ho|]. exfalso. apply Hi, In_inner. split; [|exact Ho].
      unfold nvars. cbn. apply in_app_iff. now left. }
  transitivity (mul (product R s') (sum_over (inner N outs) (product N) s')); [ring|].
  rewrite <- (so_mul z o add mul SR). apply so_ext. intros s'' [A' _]. rewrite product_app.
  replace (product R s') with (product R s''); [ring|]. apply product_dep. intros k Hk. apply A'. intros X. exact (proj1 (I2 k X) Hk). Qed.
(** replacing a tensor by the network it is the contraction of, and back *)
Lemma isc_sub N R outs out E M : isc N outs E -> isc ((E, outs) :: R) out M -> incl (flat_map bonds outs) (nvars N) ->
  (forall l, In l (inner N outs) -> ~ In l (nvars R) /\ ~ In l (flat_map bonds out)) -> isc (N ++ R) out M.
Proof. intros HN (W & Hd & HV) I1 I2. split; [exact W|]. split; [exact Hd|]. intros s Hs. rewrite HV by exact Hs. f_equal. now apply sub_sum. Qed.
Lemma isc_unsub N R outs out E M : isc N outs E -> isc (N ++ R) out M -> incl (flat_map bonds outs) (nvars N) ->
  (forall l, In l (inner N outs) -> ~ In l (nvars R) /\ ~ In l (flat_map bonds out)) -> isc ((E, outs) :: R) out M.
Proof. intros HN (W & Hd & HV) I1 I2. split; [exact W|]. split; [exact Hd|]. intros s Hs. rewrite HV by exact Hs. f_equal. symmetry. now apply sub_sum. Qed.
Lemma isc_leaf E outs : twf E -> tdims E = map ldim outs -> isc [(E, outs)] outs E.
Proof. intros W Hd. split; [exact W|]. split; [exact Hd|]. intros s Hs.
  assert (X : inner [(E, outs)] outs = []).
  { destruct (inner [(E, outs)] outs) as [|k l] eqn:Ek; [reflexivity|]. exfalso. assert (Hk : In k (k :: l)) by now left. rewrite <- Ek in Hk.
    apply In_inner in Hk. unfold nvars in Hk. cbn in Hk. rewrite app_nil_r in Hk. tauto. }
  rewrite X. cbn -[entry]. destruct (tget_Some E (map (lval s) outs)) as [v Hv]; [exact W|rewrite Hd; now apply legs_range|].
  rewrite Hv. f_equal. unfold entry. rewrite Hv. ring. Qed.

Lemma isc_value net M : isc net [] M -> tdims M = [] /\ tget M [] = Some (value net).
Proof. intros (W & Hd & HV). split; [exact Hd|]. specialize (HV (fun _ => 0) (fun l Hl => False_ind _ Hl)). exact HV. Qed.

(** a number as a factor *)
Definition scal (c : K) : tensor K * list leg := (mkT [] [c], []).
Lemma inner_scal c net out : inner (scal c :: net) out = inner net out.
Proof. reflexivity. Qed.
Lemma product_scal c net s : product (scal c :: net) s = mul c (product net s).
Proof. reflexivity. Qed.
Lemma value_scal c net : value (scal c :: net) = mul c (value net).
Proof. unfold CorrSpec.value. rewrite inner_scal. rewrite <- (so_mul z o add mul SR). reflexivity. Qed.
Lemma isc_tmap c net out M : isc net out M -> isc (scal c :: net) out (tmap (mul c) M).
Proof. intros (W & Hd & HV). split; [now apply twf_tmap|]. split; [exact Hd|]. intros s Hs.
  rewrite tget_tmap, HV by exact Hs. cbn [option_map]. f_equal. rewrite inner_scal. rewrite <- (so_mul z o add mul SR). reflexivity. Qed.
Lemma isc_scal_one net out M : isc net out M -> isc (scal o :: net) out M.
Proof. intros (W & Hd & HV). split; [exact W|]. split; [exact Hd|]. intros s Hs. rewrite HV by exact Hs. f_equal. rewrite inner_scal.
  apply so_ext. intros s' _. rewrite product_scal. ring. Qed.
Lemma isc_scal_mul a b net out M : isc (scal a :: scal b :: net) out M -> isc (scal (mul a b) :: net) out M.
Proof. intros (W & Hd & HV). split; [exact W|]. split; [exact Hd|]. intros s Hs. rewrite HV by exact Hs. f_equal. rewrite !inner_scal.
  apply so_ext. intros s' _. rewrite !product_scal. ring. Qed.
(** a network with a vanishing tensor *)
Lemma value_zero E outs R : (forall ix, entry z E ix = z) -> value ((E, outs) :: R) = z.
Proof. intros HE. unfold CorrSpec.value.
  transitivity (sum_over (inner ((E, outs) :: R) []) (fun s => mul z (product ((E, outs) :: R) s)) (fun _ => 0)).
  - apply so_ext. intros s' _. change (product ((E, outs) :: R) s') with (mul (entry z E (map (lval s') outs)) (product R s')). rewrite HE. ring.
  - rewrite (so_mul z o add mul SR). ring. Qed.
End AtD.

(** renaming of bonds *)
Fixpoint rleg (f : nat -> nat) (t : leg) : leg := match t with V l => V (f l) | F a b => F (rleg f a) (rleg f b) end.
Definition rnet (f : nat -> nat) (net : network) : network := map (fun p => (fst p, map (rleg f) (snd p))) net.
Section Ren.
Variables (D : nat -> nat) (f : nat -> nat).
Hypothesis Hf : forall a b, f a = f b -> a = b.
Definition Df (k : nat) : nat := D (f k).
Lemma ldim_ren t : ldim D (rleg f t) = ldim Df t.
Proof. induction t as [l|a IHa b IHb]; cbn; [reflexivity|now rewrite IHa, IHb]. Qed.
Lemma lval_ren s t : lval D s (rleg f t) = lval Df (fun k => s (f k)) t.
Proof. induction t as [l|a IHa b IHb]; cbn; [reflexivity|now rewrite IHa, IHb, ldim_ren]. Qed.
Lemma bonds_ren t : bonds (rleg f t) = map f (bonds t).
Proof. induction t as [l|a IHa b IHb]; cbn; [reflexivity|now rewrite IHa, IHb, map_app]. Qed.
Lemma fbonds_ren ts : flat_map bonds (map (rleg f) ts) = map f (flat_map bonds ts).
Proof. induction ts as [|t ts IH]; cbn; [reflexivity|now rewrite IH, bonds_ren, map_app]. Qed.
Lemma nvars_ren net : nvars (rnet f net) = map f (nvars net).
Proof. unfold nvars, rnet. induction net as [|p net IH]; cbn; [reflexivity|now rewrite IH, fbonds_ren, map_app]. Qed.
Lemma product_ren net s : product D z o mul (rnet f net) s = product Df z o mul net (fun k => s (f k)).
Proof. unfold product, rnet. f_equal. rewrite map_map. apply map_ext. intros p. cbn [fst snd]. f_equal. rewrite map_map. apply map_ext. intros t. apply lval_ren. Qed.
Lemma sum_ren ls (G G' : (nat -> nat) -> K) S : (forall s, G s = G' (fun k => s (f k))) -> dep S G' ->
  forall s, sum_over D z add (map f ls) G s = sum_over Df z add ls G' (fun k => s (f k)).
Proof. intros HG HD. induction ls as [|l ls IH]; intros s; cbn [map NetSpec.sum_over]; [apply HG|].
  apply (sl_ext z add). intros i _. rewrite IH. apply (so_dep z add Df ls S G' HD). intros k _ _. unfold upd.
  destruct (Nat.eqb_spec (f k) (f l)) as [E|E], (Nat.eqb_spec k l) as [E'|E']; try reflexivity.
  - apply Hf in E. contradiction.
  - subst. contradiction. Qed.
Lemma inner_ren net out : Permutation (inner (rnet f net) (map (rleg f) out)) (map f (inner net out)).
Proof. apply perm_of_sets; [apply NoDup_inner| |].
  - apply NoDup_map_inj; [|apply NoDup_inner]. intros a b _ _ E. now apply Hf.
  - intros k. rewrite In_inner, nvars_ren, fbonds_ren, !in_map_iff. split.
    + intros [(l & <- & Hl) N]. exists l. split; [reflexivity|]. apply In_inner. split; [exact Hl|]. intros X. apply N. now exists l.
    + intros (l & <- & Hl). apply In_inner in Hl. destruct Hl as [Hl N]. split; [now exists l|]. intros (l' & E & Hl'). apply Hf in E. subst. contradiction. Qed.
Lemma isc_ren net out M : is_contraction Df z o add mul net out M -> is_contraction D z o add mul (rnet f net) (map (rleg f) out) M.
Proof. intros (W & Hd & HV). split; [exact W|]. split; [rewrite Hd, map_map; apply map_ext; intros t; symmetry; apply ldim_ren|].
  intros s Hs. rewrite map_map. rewrite (map_ext _ _ (lval_ren s)). rewrite HV.
  - f_equal. rewrite (so_perm z o add mul SR D _ _ _ _ (inner_ren net out) (product_dep D (rnet f net))).
    symmetry. apply (sum_ren _ _ _ (nvars net)); [intros s'; apply product_ren|apply product_dep].
  - intros l Hl. unfold Df. apply Hs. rewrite fbonds_ren. now apply in_map. Qed.
Lemma fits_ren net : fits D (rnet f net) -> fits Df net.
Proof. unfold fits, rnet. rewrite !Forall_forall. intros H p Hp. destruct (H (fst p, map (rleg f) (snd p))) as [W E]; [apply in_map_iff; now exists p|].
  cbn in *. split; [exact W|]. rewrite E, map_map. apply map_ext. intros t. apply ldim_ren. Qed.
End Ren.
End G.
