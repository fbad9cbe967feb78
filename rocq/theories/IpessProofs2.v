(** Projections of iPESS tensors onto irreducible representations. *)
From Verif Require Import Base BaseLemmas Lattice Tensor TensorLemmas Net Su3Proofs Su3Proofs4 Plaq Ipess IpessSpec.
From Coq Require Import Ring.
Open Scope string_scope.
Open Scope list_scope.
Open Scope nat_scope.
Open Scope res_scope.

Section P.
Context {K : Type} (k0 k1 : K) (kadd kmul ksub : K -> K -> K) (kopp : K -> K) (half third : K) (cj : K -> K).
Hypothesis RT : ring_theory k0 k1 kadd kmul ksub kopp (@eq K).
Add Ring KR : RT.
Hypothesis H2 : kadd half half = k1.
Hypothesis H3 : kadd third (kadd third third) = k1.
Hypothesis CA : forall x y, cj (kadd x y) = kadd (cj x) (cj y).
Hypothesis CM : forall x y, cj (kmul x y) = kmul (cj x) (cj y).
Hypothesis CC : forall x, cj (cj x) = x.
Hypothesis CH : cj half = half.
Notation ten := (tensor K).
Notation at3 := (at3 k0).
Notation sym_bond := (sym_bond k0 kadd kmul ksub half cj).
Notation sym_tri := (sym_tri k0 kadd kmul ksub half third cj).
Notation to_pg := (to_pg k0 kadd kmul ksub half third cj).
Notation irrep := (irrep k0 kopp cj).
Notation permute := (permute k0).
Infix "+k" := kadd (at level 50, left associativity).
Infix "*k" := kmul (at level 40, left associativity).

Lemma kcancel a b : a +k b = a -> b = k0.
Proof. intros H. transitivity (ksub (a +k b) a); [ring|]. rewrite H. ring. Qed.
Lemma cj0 : cj k0 = k0.
Proof. apply (kcancel (cj k0)). rewrite <- CA. f_equal. ring. Qed.
Lemma cjopp x : cj (kopp x) = kopp (cj x).
Proof. assert (E : cj x +k cj (kopp x) = k0) by (rewrite <- CA; transitivity (cj k0); [f_equal; ring|apply cj0]).
  transitivity (ksub (cj x +k cj (kopp x)) (cj x)); [ring|]. rewrite E. ring. Qed.

(** *** tensors with three indices *)
Definition g3 (f : nat -> nat -> nat -> K) (ix : list nat) : K := match ix with [i; j; k] => f i j k | _ => k0 end.
Definition b3 (x y z : nat) f : ten := tbuild [x; y; z] (g3 f).
Definition zout (x y z : nat) (f : nat -> nat -> nat -> K) : Prop := forall i j k, ~ (i < x /\ j < y /\ k < z) -> f i j k = k0.
Lemma in3 x y z i j k : in_range [x; y; z] [i; j; k] <-> i < x /\ j < y /\ k < z.
Proof. unfold in_range. split.
  - intros H. inversion H as [|? ? ? ? A H']. inversion H' as [|? ? ? ? B H'']. inversion H'' as [|? ? ? ? C H''']. auto.
  - intros (A & B & C). repeat constructor; assumption. Qed.
Lemma at3_b3 x y z f i j k : zout x y z f -> at3 (b3 x y z f) i j k = f i j k.
Proof. intros Z. unfold IpessSpec.at3. assert (D : {i < x /\ j < y /\ k < z} + {~ (i < x /\ j < y /\ k < z)}).
  { destruct (lt_dec i x); [|right; tauto]. destruct (lt_dec j y); [|right; tauto]. destruct (lt_dec k z); [left; tauto|right; tauto]. }
  destruct D as [D|D].
  - unfold b3. rewrite tget_tbuild by (apply in3; exact D). reflexivity.
  - rewrite tget_None; [symmetry; apply Z; exact D|apply twf_tbuild|]. cbn. rewrite in3. exact D. Qed.
Lemma zout_at (t : ten) x y z : twf t -> tdims t = [x; y; z] -> zout x y z (at3 t).
Proof. intros W D i j k H. unfold IpessSpec.at3. rewrite tget_None; [reflexivity|exact W|]. rewrite D, in3. exact H. Qed.
Lemma is_b3 (t : ten) x y z : twf t -> tdims t = [x; y; z] -> t = b3 x y z (at3 t).
Proof. intros W D. apply tensor_ext; [exact W|apply twf_tbuild|exact D|]. intros ix Hix. rewrite D in Hix. unfold b3. rewrite tget_tbuild by exact Hix.
  assert (L := in_range_length _ _ Hix). destruct ix as [|i [|j [|k [|]]]]; try discriminate L. cbn.
  unfold IpessSpec.at3. assert (Hx : in_range (tdims t) [i; j; k]) by (rewrite D; exact Hix). destruct (tget_Some t _ W Hx) as [v ->]. reflexivity. Qed.
Lemma b3_ext x y z f g : (forall i j k, i < x -> j < y -> k < z -> f i j k = g i j k) -> b3 x y z f = b3 x y z g.
Proof. intros H. unfold b3. apply build_ext. intros ix Hix. apply In_indices in Hix. assert (L := in_range_length _ _ Hix).
  destruct ix as [|i [|j [|k [|]]]]; try discriminate L. apply in3 in Hix. apply H; apply Hix. Qed.
Lemma perm3 x y z f p : is_permb p 3 = true -> permute (b3 x y z f) p =
  Ok (b3 (nth (nth 0 p 0) [x; y; z] 0) (nth (nth 1 p 0) [x; y; z] 0) (nth (nth 2 p 0) [x; y; z] 0) (fun i j k => g3 f (unperm p [i; j; k]))).
Proof. intros Hp. unfold Net.permute, tpermute. cbn [b3 tbuild tdims length]. rewrite Hp.
  pose proof (proj1 (is_permb_spec _ _) Hp) as P. pose proof (Permutation.Permutation_length P) as L. rewrite seq_length in L.
  destruct p as [|a [|b [|c [|? ?]]]]; try discriminate L. f_equal. cbn [nth]. unfold b3. cbn [map]. apply build_ext.
  intros ix Hix. apply In_indices in Hix. assert (L2 := in_range_length _ _ Hix). destruct ix as [|i [|j [|k [|]]]]; try discriminate L2. cbn [g3].
  rewrite tget_tbuild; [reflexivity|]. apply in_range_unperm; [exact P|]. cbn [length map]. exact Hix. Qed.
Lemma p021 x y z f : permute (b3 x y z f) [0; 2; 1] = Ok (b3 x z y (fun i j k => f i k j)).
Proof. now rewrite perm3. Qed.
Lemma p120 x y z f : permute (b3 x y z f) [1; 2; 0] = Ok (b3 y z x (fun i j k => f k i j)).
Proof. now rewrite perm3. Qed.
Lemma p201 x y z f : permute (b3 x y z f) [2; 0; 1] = Ok (b3 z x y (fun i j k => f j k i)).
Proof. now rewrite perm3. Qed.
Lemma tmap_b3 h x y z f : tmap h (b3 x y z f) = b3 x y z (fun i j k => h (f i j k)).
Proof. unfold b3, tmap, tbuild. cbn [tdims tdata]. f_equal. rewrite map_map. apply map_ext_in. intros ix Hix. apply In_indices, in_range_length in Hix.
  destruct ix as [|i [|j [|k [|]]]]; try discriminate Hix. reflexivity. Qed.
Lemma tzip_b3 h x y z f g : tzip h (b3 x y z f) (b3 x y z g) = b3 x y z (fun i j k => h (f i j k) (g i j k)).
Proof. unfold b3. rewrite zip_build. apply build_ext. intros ix Hix. apply In_indices, in_range_length in Hix.
  destruct ix as [|i [|j [|k [|]]]]; try discriminate Hix. reflexivity. Qed.
Lemma same_b3 h x y z f g : same (tzip h) (b3 x y z f) (b3 x y z g) = Ok (b3 x y z (fun i j k => h (f i j k) (g i j k))).
Proof. unfold same. rewrite (proj2 (BaseLemmas.eqb_true (tdims (b3 x y z f)) (tdims (b3 x y z g))) eq_refl). now rewrite <- tzip_b3. Qed.

(** *** bond tensors *)
Definition pbond (sg : K -> K) (t : nat -> nat -> nat -> K) : nat -> nat -> nat -> K := fun s a b => half *k (t s a b +k sg (cj (t s b a))).
Lemma sym_bond_A p n t : twf t -> tdims t = [p; n; n] -> sym_bond "A" t = Ok (b3 p n n (pbond (fun x => x) (at3 t))).
Proof. intros W D. rewrite (is_b3 t p n n W D) at 1. unfold Ipess.sym_bond. cbn -[b3 same tmap tscl permute]. rewrite p021. cbn [bind]. rewrite tmap_b3.
  unfold tadd. rewrite same_b3. cbn [bind]. unfold tscl. now rewrite tmap_b3. Qed.
Lemma sym_bond_B p n t : twf t -> tdims t = [p; n; n] -> sym_bond "B" t = Ok (b3 p n n (pbond kopp (at3 t))).
Proof. intros W D. rewrite (is_b3 t p n n W D) at 1. unfold Ipess.sym_bond. cbn -[b3 same tmap tscl permute]. rewrite p021. cbn [bind]. rewrite tmap_b3.
  unfold tsub. rewrite same_b3. cbn [bind]. unfold tscl. rewrite tmap_b3. f_equal. apply b3_ext. intros. unfold pbond. ring. Qed.
(** signs: 1 and -1 *)
Definition sign (sg : K -> K) : Prop := (forall x y, sg (x +k y) = sg x +k sg y) /\ (forall x, sg (sg x) = x) /\ (forall x, cj (sg x) = sg (cj x)) /\ (forall x y, sg (x *k y) = x *k sg y) /\ sg k0 = k0.
Lemma sign_id : sign (fun x => x). Proof. now repeat split. Qed.
Lemma sign_opp : sign kopp.
Proof. repeat split; intros; try ring. apply cjopp. Qed.
Lemma zout_pbond sg p n t : sign sg -> zout p n n t -> zout p n n (pbond sg t).
Proof. intros (_ & _ & _ & _ & S0) Z i j k H. unfold pbond. rewrite !Z by tauto. rewrite cj0, S0. ring. Qed.
Lemma pbond_irrep sg p n t : sign sg -> twf t -> tdims t = [p; n; n] -> bond_irrep k0 cj sg (b3 p n n (pbond sg (at3 t))).
Proof. intros S W D s a b. rewrite !at3_b3 by (apply zout_pbond; [exact S|apply zout_at; [exact W|exact D]]). destruct S as (S1 & S2 & S3 & S4 & S5). unfold pbond.
  rewrite CM, CA, S3, CC, CH, S4, S1, S2. ring. Qed.
Lemma half_double x : half *k (x +k x) = x.
Proof. transitivity ((half +k half) *k x); [ring|]. rewrite H2. ring. Qed.
Lemma pbond_fix sg p n t : twf t -> tdims t = [p; n; n] -> bond_irrep k0 cj sg t -> b3 p n n (pbond sg (at3 t)) = t.
Proof. intros W D H. rewrite (is_b3 t p n n W D) at 2. apply b3_ext. intros. unfold pbond. rewrite <- H. apply half_double. Qed.

(** *** trivalent tensors *)
Definition rotm (t : nat -> nat -> nat -> K) : nat -> nat -> nat -> K := fun a b c => third *k (t a b c +k t c a b +k t b c a).
Definition ptri (sg : K -> K) (t : nat -> nat -> nat -> K) : nat -> nat -> nat -> K := fun a b c => half *k (rotm t a b c +k sg (cj (rotm t a c b))).
Lemma sym_tri_1 n t : twf t -> tdims t = [n; n; n] -> sym_tri "A_1" t = Ok (b3 n n n (ptri (fun x => x) (at3 t))).
Proof. intros W D. rewrite (is_b3 t n n n W D) at 1. unfold Ipess.sym_tri. cbn -[b3 same tmap tscl permute]. rewrite p120, p201. cbn [bind].
  unfold tadd. rewrite !same_b3. cbn [bind]. rewrite same_b3. cbn [bind]. unfold tscl. rewrite tmap_b3, p021. cbn [bind]. rewrite tmap_b3, same_b3. cbn [bind]. now rewrite tmap_b3. Qed.
Lemma sym_tri_2 n t : twf t -> tdims t = [n; n; n] -> sym_tri "A_2" t = Ok (b3 n n n (ptri kopp (at3 t))).
Proof. intros W D. rewrite (is_b3 t n n n W D) at 1. unfold Ipess.sym_tri. cbn -[b3 same tmap tscl permute]. rewrite p120, p201. cbn [bind].
  unfold tadd, tsub. rewrite !same_b3. cbn [bind]. rewrite same_b3. cbn [bind]. unfold tscl. rewrite tmap_b3, p021. cbn [bind]. rewrite tmap_b3, same_b3. cbn [bind]. rewrite tmap_b3.
  f_equal. apply b3_ext. intros. unfold ptri, rotm. ring. Qed.
Lemma zout_ptri sg n t : sign sg -> zout n n n t -> zout n n n (ptri sg t).
Proof. intros (_ & _ & _ & _ & S0) Z i j k H. unfold ptri, rotm. rewrite !Z by tauto. rewrite !CM, !CA, cj0.
  replace (cj third *k (k0 +k k0 +k k0)) with k0 by ring. rewrite S0. ring. Qed.
Lemma rotm_rot t a b c : rotm t b c a = rotm t a b c. Proof. unfold rotm. ring. Qed.
Lemma ptri_irrep sg n t : sign sg -> twf t -> tdims t = [n; n; n] -> tri_irrep k0 cj sg (b3 n n n (ptri sg (at3 t))).
Proof. intros S W D. assert (Z : zout n n n (ptri sg (at3 t))) by (apply zout_ptri; [exact S|apply zout_at; [exact W|exact D]]). destruct S as (S1 & S2 & S3 & S4 & S5). split; intros a b c; rewrite !at3_b3 by exact Z; unfold ptri.
  - rewrite (rotm_rot _ a b c), (rotm_rot _ c b a), (rotm_rot _ a c b). reflexivity.
  - rewrite CM, CA, S3, CC, CH, S4, S1, S2. ring. Qed.
Lemma ptri_fix sg n t : twf t -> tdims t = [n; n; n] -> tri_irrep k0 cj sg t -> b3 n n n (ptri sg (at3 t)) = t.
Proof. intros W D (R & H). rewrite (is_b3 t n n n W D) at 2. apply b3_ext. intros a b c _ _ _. unfold ptri.
  assert (M : forall x y z, rotm (at3 t) x y z = at3 t x y z).
  { intros x y z. unfold rotm. rewrite <- (R z x y), (R x y z). transitivity ((third +k (third +k third)) *k at3 t x y z); [ring|]. rewrite H3. ring. }
  rewrite !M, <- H. apply half_double. Qed.

(** *** one tensor *)
Definition shaped_as (k : string) (t : ten) : Prop := twf t /\ exists p n, tdims t = (if is_bond k then [p; n; n] else [n; n; n]).
Definition sym1 (k pg : string) (t : ten) : res ten := if is_bond k then sym_bond pg t else sym_tri pg t.
(** the projected element *)
Definition pj (k pg : string) (t : nat -> nat -> nat -> K) : nat -> nat -> nat -> K :=
  if is_bond k then pbond (if String.eqb pg "A" then fun x => x else kopp) t else ptri (if String.eqb pg "A_1" then fun x => x else kopp) t.
Lemma sym1_ok k pg t : known k pg -> shaped_as k t -> exists t', sym1 k pg t = Ok t' /\ twf t' /\ tdims t' = tdims t /\ irrep k pg t' /\ (forall a b c, at3 t' a b c = pj k pg (at3 t) a b c) /\ (irrep k pg t -> t' = t).
Proof. intros Hk (W & p & n & D). unfold sym1, pj, IpessSpec.irrep. change (existsb (String.eqb k) ["B_a"; "B_b"; "B_c"]) with (is_bond k).
  destruct Hk as [(Hk & Hp)|(Hk & Hp)]; cbn [In] in Hk, Hp.
  - assert (E : is_bond k = true) by (destruct Hk as [<-|[<-|[<-|[]]]]; reflexivity). rewrite E in *.
    destruct Hp as [<-|[<-|[]]]; cbn [String.eqb Ascii.eqb Bool.eqb].
    + rewrite (sym_bond_A p n t W D). eexists. split; [reflexivity|]. split; [apply twf_tbuild|]. split; [symmetry; exact D|]. split; [apply pbond_irrep; [apply sign_id|exact W|exact D]|].
      split; [intros; apply at3_b3, zout_pbond; [apply sign_id|apply zout_at; [exact W|exact D]]|]. apply pbond_fix; assumption.
    + rewrite (sym_bond_B p n t W D). eexists. split; [reflexivity|]. split; [apply twf_tbuild|]. split; [symmetry; exact D|]. split; [apply pbond_irrep; [apply sign_opp|exact W|exact D]|].
      split; [intros; apply at3_b3, zout_pbond; [apply sign_opp|apply zout_at; [exact W|exact D]]|]. apply pbond_fix; assumption.
  - assert (E : is_bond k = false) by (destruct Hk as [<-|[<-|[]]]; reflexivity). rewrite E in *.
    destruct Hp as [<-|[<-|[]]]; cbn [String.eqb Ascii.eqb Bool.eqb].
    + rewrite (sym_tri_1 n t W D). eexists. split; [reflexivity|]. split; [apply twf_tbuild|]. split; [symmetry; exact D|]. split; [apply ptri_irrep; [apply sign_id|exact W|exact D]|].
      split; [intros; apply at3_b3, zout_ptri; [apply sign_id|apply zout_at; [exact W|exact D]]|]. apply ptri_fix; assumption.
    + rewrite (sym_tri_2 n t W D). eexists. split; [reflexivity|]. split; [apply twf_tbuild|]. split; [symmetry; exact D|]. split; [apply ptri_irrep; [apply sign_opp|exact W|exact D]|].
      split; [intros; apply at3_b3, zout_ptri; [apply sign_opp|apply zout_at; [exact W|exact D]]|]. apply ptri_fix; assumption. Qed.
Lemma sym1_bad k pg t : In k names -> ~ known k pg -> sym1 k pg t = Err RuntimeError.
Proof. intros Hk H. unfold sym1, Ipess.sym_bond, Ipess.sym_tri. unfold known in H.
  assert (E : is_bond k = true /\ In k ["B_a"; "B_b"; "B_c"] \/ is_bond k = false /\ In k ["T_u"; "T_d"]).
  { unfold names in Hk. cbn [In] in *. destruct Hk as [<-|[<-|[<-|[<-|[<-|[]]]]]]; vm_compute; tauto. }
  destruct E as [(-> & E)|(-> & E)].
  - destruct (String.eqb_spec pg "A"); [exfalso; apply H; left; split; [exact E|rewrite e; cbn; auto]|].
    destruct (String.eqb_spec pg "B"); [exfalso; apply H; left; split; [exact E|rewrite e; cbn; auto]|reflexivity].
  - destruct (String.eqb_spec pg "A_1"); [exfalso; apply H; right; split; [exact E|rewrite e; cbn; auto]|].
    destruct (String.eqb_spec pg "A_2"); [exfalso; apply H; right; split; [exact E|rewrite e; cbn; auto]|reflexivity]. Qed.
(** the two parts *)
Lemma parts_bond t s a b : pbond (fun x => x) t s a b +k pbond kopp t s a b = t s a b.
Proof. unfold pbond. transitivity (half *k (t s a b +k t s a b)); [ring|]. apply half_double. Qed.
Lemma parts_tri t a b c : ptri (fun x => x) t a b c +k ptri kopp t a b c = rotm t a b c.
Proof. unfold ptri. transitivity (half *k (rotm t a b c +k rotm t a b c)); [ring|]. apply half_double. Qed.

(** *** all tensors *)
Lemma step_eq e acc k pg : In k names -> pg_step k0 kadd kmul ksub half third cj e acc (k, Some pg) = match dget e k with Some t => r <- sym1 k pg t ;; Ok (dset acc k r) | None => Ok acc end.
Proof. intros H. unfold pg_step, sym1. cbn [fst snd].
  assert (E : is_bond k = true /\ is_tri k = false \/ is_bond k = false /\ is_tri k = true).
  { unfold names in H. cbn [In] in H. destruct H as [<-|[<-|[<-|[<-|[<-|[]]]]]]; vm_compute; tauto. }
  destruct E as [(-> & ->)|(-> & ->)]; cbn [bind]; destruct (dget e k); cbn [bind]; try reflexivity. now destruct (sym_bond pg t). Qed.
Definition allowed (g : pg_groups) : Prop := forall k pg, In (k, Some pg) g -> known k pg.
Definition well (e : dict string ten) : Prop := forall k t, dget e k = Some t -> shaped_as k t.
Lemma known_name k pg : known k pg -> In k names.
Proof. unfold known, names. cbn [In]. tauto. Qed.
Lemma fold_pg e (W : well e) : forall g acc, NoDup (dkeys g) -> allowed g -> (forall k, In k (dkeys e) -> In k (dkeys acc)) ->
  exists e', foldM (pg_step k0 kadd kmul ksub half third cj e) g acc = Ok e' /\ dkeys e' = dkeys acc /\
    forall k, match dget g k, dget e k with
              | Some (Some pg), Some t => exists t', sym1 k pg t = Ok t' /\ dget e' k = Some t'
              | _, _ => dget e' k = dget acc k end.
Proof. induction g as [|[k o] g IH]; intros acc N A Hk.
  - exists acc. split; [reflexivity|]. split; [reflexivity|]. reflexivity.
  - cbn [dkeys map fst] in N. apply NoDup_cons_iff in N. destruct N as [N1 N2]. assert (A' : allowed g) by (intros x y H; apply A; right; exact H).
    assert (Hg : dget g k = None) by (apply dget_None; exact N1).
    cbn [foldM]. destruct o as [pg|].
    + assert (Kn : known k pg) by (apply A; left; reflexivity). rewrite step_eq by (exact (known_name _ _ Kn)). destruct (dget e k) as [t|] eqn:Et.
      * destruct (sym1_ok k pg t Kn (W _ _ Et)) as (t' & Es & _). rewrite Es. cbn [bind].
        assert (Ka : In k (dkeys acc)) by (apply Hk, dget_Some_key; eauto).
        destruct (IH (dset acc k t') N2 A') as (e' & Ee & Ed & Hv).
        { intros x Hx. apply dkeys_dset. right. apply Hk; exact Hx. }
        exists e'. split; [exact Ee|]. split; [rewrite Ed; apply dkeys_dset_old; exact Ka|].
        intros x. cbn [dget]. destruct (eq_dec x k) as [->|Hn].
        { rewrite Et. exists t'. split; [exact Es|]. specialize (Hv k). rewrite Hg in Hv. rewrite Hv. apply dget_dset_same. }
        { specialize (Hv x). rewrite dget_dset_other in Hv by exact Hn. exact Hv. }
      * cbn [bind]. destruct (IH acc N2 A' Hk) as (e' & Ee & Ed & Hv). exists e'. split; [exact Ee|]. split; [exact Ed|].
        intros x. cbn [dget]. destruct (eq_dec x k) as [->|Hn]; [rewrite Et|exact (Hv x)]. specialize (Hv k). rewrite Hg in Hv. exact Hv.
    + cbn [pg_step snd bind]. destruct (IH acc N2 A' Hk) as (e' & Ee & Ed & Hv). exists e'. split; [exact Ee|]. split; [exact Ed|].
      intros x. cbn [dget]. destruct (eq_dec x k) as [->|Hn]; [|exact (Hv x)]. specialize (Hv k). rewrite Hg in Hv. exact Hv. Qed.
Lemma to_pg_ok g e : well e -> NoDup (dkeys g) -> allowed g -> exists e', to_pg g e = Ok e' /\ dkeys e' = dkeys e /\
  forall k t, dget e k = Some t -> exists t', dget e' k = Some t' /\ twf t' /\ tdims t' = tdims t /\
    match dget g k with
    | Some (Some pg) => irrep k pg t' /\ (forall a b c, at3 t' a b c = pj k pg (at3 t) a b c) /\ (irrep k pg t -> t' = t)
    | _ => t' = t end.
Proof. intros W N A. destruct (fold_pg e W g e N A (fun _ H => H)) as (e' & E & Ed & Hv). exists e'. split; [exact E|]. split; [exact Ed|].
  intros k t Et. specialize (Hv k). rewrite Et in Hv. destruct (dget g k) as [[pg|]|] eqn:Eg.
  - destruct Hv as (t' & Es & E'). exists t'. split; [exact E'|].
    destruct (sym1_ok k pg t (A _ _ (dget_In _ _ _ Eg)) (W _ _ Et)) as (t2 & Es2 & W2 & D2 & I2 & P2 & F2). rewrite Es in Es2. injection Es2 as <-. tauto.
  - exists t. destruct (W _ _ Et) as (Wt & _). auto.
  - exists t. destruct (W _ _ Et) as (Wt & _). auto. Qed.
(** an unknown irrep *)
Lemma to_pg_bad g e k pg t : well e -> (forall x, In x (dkeys g) -> In x names) -> In (k, Some pg) g -> dget e k = Some t -> ~ known k pg -> to_pg g e = Err RuntimeError.
Proof. intros W N H Et Hk. unfold Ipess.to_pg. generalize e at 2. revert N H. induction g as [|[x o] g IH]; intros N H acc; [destruct H|]. cbn [foldM].
  destruct H as [E|H].
  - injection E as -> ->. rewrite step_eq by (apply N; left; reflexivity). rewrite Et, sym1_bad; [reflexivity|apply N; left; reflexivity|exact Hk].
  - assert (IH' := IH (fun y Hy => N y (or_intror Hy)) H). destruct o as [q|]; [|cbn [pg_step snd bind]; apply IH'].
    rewrite step_eq by (apply N; left; reflexivity). destruct (dget e x) as [u|] eqn:Eu; [|cbn [bind]; apply IH'].
    assert (C : (exists r, sym1 x q u = Ok r) \/ sym1 x q u = Err RuntimeError).
    { assert (D : known x q \/ ~ known x q).
      { unfold known. destruct (in_dec string_dec x ["B_a"; "B_b"; "B_c"]), (in_dec string_dec q ["A"; "B"]), (in_dec string_dec x ["T_u"; "T_d"]), (in_dec string_dec q ["A_1"; "A_2"]); tauto. }
      destruct D as [D|D]; [left; destruct (sym1_ok x q u D (W _ _ Eu)) as (r & E & _); eauto|right; apply sym1_bad; [apply N; left; reflexivity|exact D]]. }
    destruct C as [(r & ->)| ->]; cbn [bind]; [apply IH'|reflexivity]. Qed.
End P.
