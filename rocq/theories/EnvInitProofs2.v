(** Starting environments from the sites: init_from_ipeps_pbc. *)
From Verif Require Import Base BaseLemmas Lattice Tensor TensorLemmas Net NetSpec NetProofs NetProofs2 NetProofs3 Extend Corners CornersSpec CtmC4v EnvInit EnvInitSpec EnvInitProofs.
From Verif Require Ctm ExtendSpec ExtendProofs.
From Coq Require Import Ring.
Open Scope list_scope.
Open Scope nat_scope.
Open Scope res_scope.

(** ** dictionaries of the environment *)
Section Dicts.
Context {K : Type}.
Notation ten := (tensor K).
Notation envt := (Ctm.envt ten).
Notation getC := (Ctm.getC ten).
Notation getT := (Ctm.getT ten).
Implicit Types (e : envt) (c d : coord).
Lemma getC_setC e c d t : getC (set_C e c d t) c d = Ok t.
Proof. unfold Ctm.getC, set_C, dget_exn. cbn. now rewrite dget_dset_same. Qed.
Lemma getC_setC_other e c d t c' d' : (c, d) <> (c', d') -> getC (set_C e c d t) c' d' = getC e c' d'.
Proof. intros H. unfold Ctm.getC, set_C, dget_exn. cbn. rewrite dget_dset_other; congruence. Qed.
Lemma getC_setT e c d t c' d' : getC (set_T e c d t) c' d' = getC e c' d'.
Proof. reflexivity. Qed.
Lemma getT_setT e c d t : getT (set_T e c d t) c d = Ok t.
Proof. unfold Ctm.getT, set_T, dget_exn. cbn. now rewrite dget_dset_same. Qed.
Lemma getT_setT_other e c d t c' d' : (c, d) <> (c', d') -> getT (set_T e c d t) c' d' = getT e c' d'.
Proof. intros H. unfold Ctm.getT, set_T, dget_exn. cbn. rewrite dget_dset_other; congruence. Qed.
Lemma getT_setC e c d t c' d' : getT (set_C e c d t) c' d' = getT e c' d'.
Proof. reflexivity. Qed.
Definition same_at (e e' : envt) c : Prop := forall d, getC e' c d = getC e c d /\ getT e' c d = getT e c d.

Lemma fold_sites (f : envt -> coord -> res envt) (ok : coord -> envt -> Prop) keys :
  (forall c e e', same_at e e' c -> ok c e -> ok c e') ->
  (forall e c, In c keys -> exists e', f e c = Ok e' /\ ok c e' /\ forall c', c' <> c -> same_at e e' c') ->
  forall e, exists e', foldM f keys e = Ok e' /\ (forall c, In c keys -> ok c e') /\ forall c, ~ In c keys -> same_at e e' c.
Proof. intros Hok. induction keys as [|c keys IH]; intros H e.
  - exists e. split; [reflexivity|]. split; [intros c []|]. intros c _ d. split; reflexivity.
  - destruct (H e c (or_introl eq_refl)) as (e1 & E1 & O1 & S1).
    destruct (IH (fun e c Hc => H e c (or_intror Hc)) e1) as (e2 & E2 & O2 & S2).
    exists e2. split; [cbn; rewrite E1; exact E2|]. split.
    + intros c' [<-|Hc']; [|now apply O2]. destruct (in_dec eq_dec c keys) as [Hi|Hi]; [now apply O2|].
      apply (Hok _ e1); [now apply S2|exact O1].
    + intros c' Hc' d. cbn in Hc'. destruct (S2 c' ltac:(tauto) d) as [-> ->]. apply S1. intros ->. tauto. Qed.
End Dicts.
Ltac neq := let E := fresh in intros E; apply pair_equal_spec in E; destruct E; first [discriminate|congruence].
Ltac gets := repeat first [rewrite getC_setC|rewrite getT_setT|rewrite getC_setT|rewrite getT_setC|rewrite getC_setC_other by neq|rewrite getT_setT_other by neq].

Section P.
Context {K : Type} (z o : K) (add mul div : K -> K -> K) (cj : K -> K) (is0 : K -> bool).
Notation ten := (tensor K).
Notation envt := (Ctm.envt ten).
Notation getC := (Ctm.getC ten).
Notation getT := (Ctm.getT ten).
Variable amax : ten -> K.
Variable cv : K -> K.
Hypothesis Hcv : forall x, cv x = x.
Notation copy := (copy_block z cv).

Lemma tmap_cv (t : ten) : tmap cv t = t.
Proof. destruct t as [d l]. unfold tmap. cbn. f_equal. rewrite <- (map_id l) at 2. apply map_ext. exact Hcv. Qed.
Lemma copy_ok (a : ten) dims' ks : twf a -> length ks = length dims' -> length ks = length (tdims a) ->
  slice_dims (tdims a) ks = slice_dims dims' ks ->
  (forall ix, in_range dims' ix -> (in_range (slice_dims dims' ks) ix <-> in_range (tdims a) ix)) ->
  exists t, copy (tzeros z dims') a ks = Ok t /\ ExtendSpec.padded z a dims' t.
Proof. intros W L1 L2 S R. destruct (ExtendProofs.copy_padded z cv a dims' ks W ltac:(lia) ltac:(lia) S R) as (t & E & P).
  exists t. split; [exact E|]. now rewrite tmap_cv in P. Qed.
(** a boundary leg of dimension m cut or filled up to chi; a leg of dimension n kept *)
Inductive leg_copy := Bdry (m : nat) | Kept (n : nat).
Definition lc_dim l := match l with Bdry m => m | Kept n => n end.
Definition lc_new chi l := match l with Bdry _ => chi | Kept n => n end.
Definition lc_slice chi l := match l with Bdry m => Some (Nat.min chi m) | Kept _ => None end.
Lemma copy_legs (a : ten) chi ls : twf a -> tdims a = map lc_dim ls ->
  exists t, copy (tzeros z (map (lc_new chi) ls)) a (map (lc_slice chi) ls) = Ok t /\ ExtendSpec.padded z a (map (lc_new chi) ls) t.
Proof. intros W E. apply copy_ok; rewrite ?E, ?map_length; try reflexivity; try assumption; clear.
  - induction ls as [|l ls IH]; [reflexivity|]. cbn [map slice_dims]. rewrite IH. f_equal. destruct l; cbn; lia.
  - induction ls as [|l ls IH]; cbn; intros ix H; [tauto|]. inversion H as [|? i ? ix' Hi H']; subst. specialize (IH _ H').
    destruct l as [m|n]; cbn in *; (split; intros Q; inversion Q as [|? ? ? ? Q1 Q2]; subst; (constructor; [lia|now apply IH])). Qed.

Lemma view_dims (t t' : ten) dims : view t dims = Ok t' -> tdims t' = dims.
Proof. unfold view, treshape. destruct (_ =? _); [|discriminate]. intros E. now injection E as <-. Qed.
Lemma normalize_ok (a : ten) : is0 (amax a) = false -> normalize div is0 amax a = Ok (unit_scale div amax a).
Proof. intros H. unfold normalize, tdiv. now rewrite H. Qed.
Lemma twf_scale (a : ten) : twf a -> twf (unit_scale div amax a).
Proof. unfold twf, unit_scale, tmap. cbn. now rewrite map_length. Qed.
Lemma size_bd (A : ten) k : site5 A -> k < 5 -> size A k = bd A k.
Proof. intros [_ L] H. destruct A as [d l]. cbn in L. destruct d as [|? [|? [|? [|? [|? [|]]]]]]; try discriminate L. destruct k as [|[|[|[|[|]]]]]; try lia; reflexivity. Qed.
Lemma twf_conj (A : ten) : twf A -> twf (conj cj A).
Proof. unfold twf, conj, tmap. cbn. now rewrite map_length. Qed.

(** ** init_from_ipeps_pbc *)
Hypothesis SR : semi_ring_theory z o add mul eq.
Notation nonzero := (nonzero z o add mul amax is0).
Section Pbc.
Variables (st : ipeps ten) (chi : nat).
Notation start := (is_start z o add mul div amax).

Lemma bind_bind {X Y W} (m : res X) (f : X -> res Y) (g : Y -> res W) : bind (bind m f) g = bind m (fun x => bind (f x) g).
Proof. now destruct m. Qed.
Lemma start_step d (m : res ten) ix (A B : ten) cl :
  (exists M, m = Ok M /\ is_contraction (bd A) z o add mul (layers cl (inward d) A B) (fused (inward d)) M) ->
  nonzero cl d A B -> forall ls, map (ldim (bd A)) (fused (inward d)) = ix -> ix = map lc_dim ls ->
  map (lc_new chi) ls = start_dims chi d (inward d) (fun k => bd A (1 + k) * bd A (5 + k)) ->
  exists M t, m = Ok M /\ normalize div is0 amax M = Ok (unit_scale div amax M) /\
    copy (tzeros z (map (lc_new chi) ls)) (unit_scale div amax M) (map (lc_slice chi) ls) = Ok t /\ start cl chi d A B t.
Proof. intros (M & E & HM) HN ls E1 -> E2. assert (W := proj1 HM).
  assert (Hd : tdims M = map lc_dim ls) by (rewrite <- E1; exact (proj1 (proj2 HM))).
  destruct (copy_legs (unit_scale div amax M) chi ls (twf_scale M W) Hd) as (t & Et & Pt).
  exists M, t. split; [exact E|]. split; [now apply normalize_ok, HN|]. split; [exact Et|]. exists M. split; [exact HM|]. rewrite <- E2. exact Pt. Qed.

Lemma pbc_C_ok d l l' i j c e A : ipeps_site st (cadd c d) = Ok A -> site5 A -> nonzero Traced d A (conj cj A) ->
  (exists M, (a <- einsum2 z o add mul l l' "eafb" A (conj cj A) ;; view a [sq (size A i); sq (size A j)]) = Ok M /\
     is_contraction (bd A) z o add mul (layers Traced (inward d) A (conj cj A)) (fused (inward d)) M) ->
  map (ldim (bd A)) (fused (inward d)) = [sq (size A i); sq (size A j)] ->
  [chi; chi] = start_dims chi d (inward d) (fun k => bd A (1 + k) * bd A (5 + k)) ->
  getC e c d = Ok (tzeros z [chi; chi]) ->
  exists t, pbc_C z o add mul div cj is0 amax cv st chi c d l l' i j e = Ok (set_C e c d t) /\ start Traced chi d A (conj cj A) t.
Proof. intros HA H5 HN HM E1 E2 HC.
  destruct (start_step d _ _ A (conj cj A) Traced HM HN [Bdry (sq (size A i)); Bdry (sq (size A j))] E1 eq_refl E2) as (M & t & EM & En & Ec & Hs).
  exists t. split; [|exact Hs]. unfold pbc_C. rewrite HA. cbn [bind]. rewrite <- bind_bind, EM. cbn [bind]. rewrite En. cbn [bind]. rewrite HC. cbn [bind].
  cbn [map lc_new lc_slice] in Ec. rewrite Ec. reflexivity. Qed.
Lemma pbc_T_ok d l l' i j k c A ls : ipeps_site st (cadd c d) = Ok A -> site5 A -> nonzero Traced d A (conj cj A) ->
  (exists M, (a <- einsum2 z o add mul l l' "eafbgc" A (conj cj A) ;; view a [sq (size A i); sq (size A j); sq (size A k)]) = Ok M /\
     is_contraction (bd A) z o add mul (layers Traced (inward d) A (conj cj A)) (fused (inward d)) M) ->
  map (ldim (bd A)) (fused (inward d)) = [sq (size A i); sq (size A j); sq (size A k)] -> [sq (size A i); sq (size A j); sq (size A k)] = map lc_dim ls ->
  map (lc_new chi) ls = start_dims chi d (inward d) (fun k => bd A (1 + k) * bd A (5 + k)) ->
  exists a t, pbc_T z o add mul div cj is0 amax st d c l l' i j k = Ok (A, a) /\
    copy (tzeros z (map (lc_new chi) ls)) a (map (lc_slice chi) ls) = Ok t /\ start Traced chi d A (conj cj A) t.
Proof. intros HA H5 HN HM E1 El E2. destruct (start_step d _ _ A (conj cj A) Traced HM HN ls E1 El E2) as (M & t & EM & En & Ec & Hs).
  exists (unit_scale div amax M), t. split; [|split; [exact Ec|exact Hs]]. unfold pbc_T. rewrite HA. cbn [bind]. rewrite <- bind_bind, EM. cbn [bind]. now rewrite En. Qed.

Lemma size_legs (A : ten) : site5 A -> forall i, i < 4 -> bd A (1 + i) * bd A (5 + i) = sq (size A (1 + i)).
Proof. intros H i Hi. rewrite (size_bd A (1 + i) H ltac:(lia)), bd_pair by exact Hi. reflexivity. Qed.
Ltac sizes H5 := cbv [fused start_dims filter inward outward facing sides side nth fst snd negb eqb Z.eqb Pos.eqb cneg orb andb map ldim FF seq Z.opp];
  try match goal with |- context [eq_dec ?a ?b] => idtac end; cbn;
  pose proof (size_legs _ H5 0 ltac:(lia)) as HS0; pose proof (size_legs _ H5 1 ltac:(lia)) as HS1; pose proof (size_legs _ H5 2 ltac:(lia)) as HS2; pose proof (size_legs _ H5 3 ltac:(lia)) as HS3;
  cbn [Nat.add] in HS0, HS1, HS2, HS3; rewrite ?HS0, ?HS1, ?HS2, ?HS3; reflexivity.

Definition from_site (cl : closing) (br : ten -> ten) c (e : envt) : Prop :=
  (forall d, In d corner_dirs -> exists A t, ipeps_site st (cadd c d) = Ok A /\ getC e c d = Ok t /\ start cl chi d A (br A) t) /\
  (forall d, In d edge_dirs -> exists A t, ipeps_site st (cadd c d) = Ok A /\ getT e c d = Ok t /\ start cl chi d A (br A) t).
Definition ready cl (br : ten -> ten) c : Prop := forall d, In d (corner_dirs ++ edge_dirs) -> exists A, ipeps_site st (cadd c d) = Ok A /\ site5 A /\ nonzero cl d A (br A).

Lemma zero_corners_ok (e : envt) c d : In d corner_dirs -> getC (zero_corners z chi e c) c d = Ok (tzeros z [chi; chi]).
Proof. intros H. unfold zero_corners. cbn [fold_left]. cbn in H. repeat (destruct H as [<-|H]; [gets; reflexivity|]). contradiction. Qed.
Lemma zero_corners_other (e : envt) c c' : c' <> c -> same_at e (zero_corners z chi e c) c'.
Proof. intros H d. unfold zero_corners. cbn [fold_left]. split; [|reflexivity]. now gets. Qed.
Lemma zero_corners_T (e : envt) c c' d : getT (zero_corners z chi e c) c' d = getT e c' d.
Proof. reflexivity. Qed.

Lemma pbc_site_ok e c : ready Traced (conj cj) c ->
  exists e', pbc_site z o add mul div cj is0 amax cv st chi e c = Ok e' /\ from_site Traced (conj cj) c e' /\ forall c', c' <> c -> same_at e e' c'.
Proof. intros HR.
  destruct (HR (-1, -1)%Z) as (A1 & L1 & V1 & N1); [cbn; tauto|]. destruct (HR (1, -1)%Z) as (A2 & L2 & V2 & N2); [cbn; tauto|].
  destruct (HR (1, 1)%Z) as (A3 & L3 & V3 & N3); [cbn; tauto|]. destruct (HR (-1, 1)%Z) as (A4 & L4 & V4 & N4); [cbn; tauto|].
  destruct (HR (0, -1)%Z) as (A5 & L5 & V5 & N5); [cbn; tauto|]. destruct (HR (-1, 0)%Z) as (A6 & L6 & V6 & N6); [cbn; tauto|].
  destruct (HR (0, 1)%Z) as (A7 & L7 & V7 & N7); [cbn; tauto|]. destruct (HR (1, 0)%Z) as (A8 & L8 & V8 & N8); [cbn; tauto|].
  unfold pbc_site. set (e0 := zero_corners z chi e c).
  destruct (pbc_C_ok _ "mijef" "mijab" 3 4 c (e0) A1 L1 V1 N1) as (t1 & -> & S1);
    [apply pbc_LU; [exact SR|exact V1|apply twf_conj, V1|reflexivity]|sizes V1|reflexivity|gets; apply zero_corners_ok; cbn; tauto|].
  cbn [bind].
  destruct (pbc_C_ok _ "miefj" "miabj" 2 3 c (set_C (e0) c (-1, -1)%Z t1) A2 L2 V2 N2) as (t2 & -> & S2);
    [apply pbc_RU; [exact SR|exact V2|apply twf_conj, V2|reflexivity]|sizes V2|reflexivity|gets; apply zero_corners_ok; cbn; tauto|].
  cbn [bind].
  destruct (pbc_C_ok _ "mefij" "mabij" 1 2 c (set_C (set_C (e0) c (-1, -1)%Z t1) c (1, -1)%Z t2) A3 L3 V3 N3) as (t3 & -> & S3);
    [apply pbc_RD; [exact SR|exact V3|apply twf_conj, V3|reflexivity]|sizes V3|reflexivity|gets; apply zero_corners_ok; cbn; tauto|].
  cbn [bind].
  destruct (pbc_C_ok _ "meijf" "maijb" 1 4 c (set_C (set_C (set_C (e0) c (-1, -1)%Z t1) c (1, -1)%Z t2) c (1, 1)%Z t3) A4 L4 V4 N4) as (t4 & -> & S4);
    [apply pbc_LD; [exact SR|exact V4|apply twf_conj, V4|reflexivity]|sizes V4|reflexivity|gets; apply zero_corners_ok; cbn; tauto|].
  cbn [bind].
  destruct (pbc_T_ok _ "miefg" "miabc" 2 3 4 c A5 [Bdry (sq (size A5 2)); Kept (sq (size A5 3)); Bdry (sq (size A5 4))] L5 V5 N5) as (a5 & t5 & -> & Q5 & S5);
    [apply pbc_U; [exact SR|exact V5|apply twf_conj, V5|reflexivity]|sizes V5|reflexivity|sizes V5|].
  cbn [bind]. cbn [map lc_new lc_slice] in Q5. rewrite Q5. cbn [bind].
  destruct (pbc_T_ok _ "meifg" "maibc" 1 3 4 c A6 [Bdry (sq (size A6 1)); Bdry (sq (size A6 3)); Kept (sq (size A6 4))] L6 V6 N6) as (a6 & t6 & -> & Q6 & S6);
    [apply pbc_L; [exact SR|exact V6|apply twf_conj, V6|reflexivity]|sizes V6|reflexivity|sizes V6|].
  cbn [bind]. cbn [map lc_new lc_slice] in Q6. rewrite Q6. cbn [bind].
  destruct (pbc_T_ok _ "mefig" "mabic" 1 2 4 c A7 [Kept (sq (size A7 1)); Bdry (sq (size A7 2)); Bdry (sq (size A7 4))] L7 V7 N7) as (a7 & t7 & -> & Q7 & S7);
    [apply pbc_D; [exact SR|exact V7|apply twf_conj, V7|reflexivity]|sizes V7|reflexivity|sizes V7|].
  cbn [bind]. cbn [map lc_new lc_slice] in Q7. rewrite Q7. cbn [bind].
  destruct (pbc_T_ok _ "mefgi" "mabci" 1 2 3 c A8 [Bdry (sq (size A8 1)); Kept (sq (size A8 2)); Bdry (sq (size A8 3))] L8 V8 N8) as (a8 & t8 & -> & Q8 & S8);
    [apply pbc_R; [exact SR|exact V8|apply twf_conj, V8|reflexivity]|sizes V8|reflexivity|sizes V8|].
  cbn [bind]. cbn [map lc_new lc_slice] in Q8. rewrite Q8. cbn [bind].
  eexists. split; [reflexivity|]. split; [split|].
  - intros d H. cbn in H. repeat (destruct H as [<-|H]; [eexists; eexists; split; [eassumption|split; [gets; reflexivity|assumption]]|]). contradiction.
  - intros d H. cbn in H. repeat (destruct H as [<-|H]; [eexists; eexists; split; [eassumption|split; [gets; reflexivity|assumption]]|]). contradiction.
  - intros c' Hc d. destruct (zero_corners_other e c c' Hc d) as [Z1 Z2]. fold e0 in Z1, Z2. split; gets; assumption. Qed.
Lemma from_site_ext cl br c e e' : same_at e e' c -> from_site cl br c e -> from_site cl br c e'.
Proof. intros H [H1 H2]. split; intros d Hd.
  - destruct (H1 d Hd) as (A & t & EA & ET & HS). exists A, t. split; [exact EA|]. split; [|exact HS]. now rewrite (proj1 (H d)).
  - destruct (H2 d Hd) as (A & t & EA & ET & HS). exists A, t. split; [exact EA|]. split; [|exact HS]. now rewrite (proj2 (H d)). Qed.
Lemma init_pbc_ok e sites : i_sites st = Some sites -> (forall c, In c (dkeys sites) -> ready Traced (conj cj) c) ->
  exists e', init_from_ipeps_pbc z o add mul div cj is0 amax cv st chi e = Ok e' /\ forall c, In c (dkeys sites) -> from_site Traced (conj cj) c e'.
Proof. intros Hs HR. unfold init_from_ipeps_pbc, sites_of. rewrite Hs. cbn [bind].
  destruct (fold_sites (pbc_site z o add mul div cj is0 amax cv st chi) (from_site Traced (conj cj)) (dkeys sites) (from_site_ext _ _)
    (fun e c Hc => pbc_site_ok e c (HR c Hc)) e) as (e' & E & H & _).
  exists e'. split; [exact E|exact H]. Qed.
End Pbc.
End P.
