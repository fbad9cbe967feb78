(** Proofs about checkpoints of the classes built from elementary tensors. *)
From Coq Require Import String List ZArith Bool Lia.
From Verif Require Import Base BaseLemmas StateCk StateCkSpec StateCkProofs.
Import ListNotations.
Open Scope list_scope.
Open Scope res_scope.

Section P.
Context {A : Type}.
Notation pyv := (pyv A).
Notation tens := (tens A).
Variable numel : A -> Z.
Variable lincomb : list (bool * A) -> A -> res A.

(** the linear combination depends on the values of the coefficients only *)
Lemma lincomb_t_tensor ts c s : lincomb_t lincomb ts c = Ok s -> exists t, c = PT t.
Proof. unfold lincomb_t. destruct c; cbn; try discriminate. eauto. Qed.

Lemma lincomb_t_off ts c s : lincomb_t lincomb ts (PT c) = Ok s ->
  exists s', lincomb_t lincomb ts (PT (off c)) = Ok s' /\
  exists t t', s = PT t /\ s' = PT t' /\ t_val t' = t_val t.
Proof.
  unfold lincomb_t. cbn [tensor bind off t_val]. intros H. bind_inv H. rewrite Ha. cbn [bind].
  injection H as <-. eexists; split; [reflexivity|]. do 2 eexists. repeat split.
Qed.

Lemma all_tensors (d : list (pykey * pyv)) :
  (forall x, In x d -> exists t, snd x = PT t) -> exists c, d = enc c.
Proof.
  induction d as [|[k v] d IH]; intros H.
  - exists []. reflexivity.
  - destruct (H (k, v) (or_introl eq_refl)) as (t & Et). cbn in Et. subst v.
    destruct IH as (c & ->); [intros x Hx; apply H; now right|]. exists ((k, t) :: c). reflexivity.
Qed.

Lemma mapM_In {X Y} (f : X -> res Y) l ys x : mapM f l = Ok ys -> In x l -> exists y, f x = Ok y /\ In y ys.
Proof.
  revert ys. induction l as [|a l IH]; intros ys H [].
  - subst a. cbn [mapM] in H. bind_inv H. bind_inv H. injection H as <-. eexists; split; [eassumption|now left].
  - cbn [mapM] in H. bind_inv H. bind_inv H. injection H as <-.
    destruct (IH _ Ha0 H0) as (y & E & Hin). exists y; split; [exact E|now right].
Qed.

Lemma lc_build_coeffs irreps elem coeffs sites : lc_build lincomb irreps elem coeffs = Ok sites ->
  exists c, coeffs = PDict (enc c).
Proof.
  unfold lc_build. intros H. bind_inv H. bind_inv H. bind_inv H.
  destruct coeffs; cbn in Ha0; try discriminate. injection Ha0 as <-.
  destruct (all_tensors d) as (c & ->); [|eauto].
  intros [k v] Hin. destruct (mapM_In _ _ _ _ Ha1 Hin) as (y & Ey & _).
  bind_inv Ey. cbn [snd] in *. eapply lincomb_t_tensor; eassumption.
Qed.

Lemma lc_build_offs irreps elem c sites : lc_build lincomb irreps elem (PDict (enc c)) = Ok sites ->
  exists sites', lc_build lincomb irreps elem (PDict (enc (offs c))) = Ok sites' /\ same_sites sites sites'.
Proof.
  unfold lc_build. intros H. bind_inv H. rewrite Ha. cbn [bind py_items] in *. bind_inv H.
  injection H as <-.
  destruct (mapM_rel (fun x y => exists k t, x = (k, PT t) /\ y = (k, PT (off t))) same_entry
     (fun kc : pykey * pyv => bind (lincomb_t lincomb a (snd kc)) (fun s => Ok (fst kc, s)))
     (fun kc : pykey * pyv => bind (lincomb_t lincomb a (snd kc)) (fun s => Ok (fst kc, s))))
     with (l := enc c) (l' := enc (offs c)) (ys := a0) as (ys' & E & F).
  - intros x x' y (k & t & -> & ->) Hy. cbn [fst snd] in *. bind_inv Hy. injection Hy as <-.
    destruct (lincomb_t_off _ _ _ Ha1) as (s' & Es & t1 & t2 & E1 & E2 & E3). rewrite Es. cbn [bind].
    eexists; split; [reflexivity|]. split; [reflexivity|]. cbn [snd]. exists t1, t2. auto.
  - clear. induction c as [|[k t] c IH]; constructor; auto. exists k, t. split; reflexivity.
  - exact Ha0.
  - rewrite E. cbn [bind]. eexists; split; [reflexivity|]. now apply same_entries_sites.
Qed.

Lemma lc_load_eq st0 st e l o : lc_made numel lincomb st ->
  exists c sites, l_coeffs st = PDict (enc c) /\
   lc_load numel lincomb st0 (store_checkpoint e l o (lc_checkpoint st)) =
     Ok (mk_lc (l_elem st) (PDict (enc (offs c))) (l_irreps st) sites) /\
   same_sites (l_sites st) sites.
Proof.
  intros (elem & coeffs & le & H & Hl & d & k & t & Ec & Hin & Hn).
  unfold lc_new in H. bind_inv H. bind_inv H. injection H as <-.
  cbn [l_coeffs l_elem l_irreps l_sites].
  destruct (lc_build_coeffs _ _ _ _ Ha0) as (c & Hc).
  rewrite Ec in Hc. injection Hc as Hc. subst coeffs d.
  destruct (lc_build_offs _ _ _ _ Ha0) as (sites & Hb & Hs).
  exists c, sites. split; [reflexivity|]. split; [|exact Hs].
  unfold lc_load. rewrite get_parameters_entry. cbn [bind].
  change (py_items (lc_checkpoint (mk_lc elem (PDict (enc c)) a a0)))
    with (@Ok (list (pykey * pyv)) [(KStr "coeffs", PDict (enc c)); (KStr "elem_tensors", elem); (KStr "pg_irreps", PSet a)]).
  cbn [bind].
  change (dmem [(KStr "coeffs", PDict (enc c)); (KStr "elem_tensors", elem); (KStr "pg_irreps", PSet a)] (KStr "coeffs")) with true.
  change (dmem [(KStr "coeffs", PDict (enc c)); (KStr "elem_tensors", elem); (KStr "pg_irreps", PSet a)] (KStr "elem_tensors")) with true.
  cbv iota.
  change (py_get (lc_checkpoint (mk_lc elem (PDict (enc c)) a a0)) (KStr "coeffs")) with (@Ok pyv (PDict (enc c))).
  change (py_get (lc_checkpoint (mk_lc elem (PDict (enc c)) a a0)) (KStr "elem_tensors")) with (Ok elem).
  cbn [bind]. rewrite values_off_enc. cbn [bind].
  assert (B : some_full numel elem (PDict (enc (offs c))) = Ok true).
  { unfold some_full. rewrite Hl. cbn [bind py_values]. rewrite dvals_enc.
    rewrite (mapM_Ok_map _ (fun v => match v with PT t => Z.eqb (numel (t_val t)) (Z.of_nat (length le)) | _ => false end)).
    - cbn [bind]. f_equal. rewrite map_map. apply existsb_exists. exists true. split; [|reflexivity].
      apply in_map_iff. exists (off t). split; [cbn; now apply Z.eqb_eq|].
      apply in_map_iff. exists (k, off t). split; [reflexivity|]. unfold offs. apply in_map_iff.
      exists (k, t). split; [reflexivity|]. unfold enc in Hin. apply in_map_iff in Hin.
      destruct Hin as ((k' & t') & E & Hin). inversion E; subst. exact Hin.
    - intros v Hv. apply in_map_iff in Hv. destruct Hv as (u & <- & _). reflexivity. }
  rewrite B. cbn [bind py_assert]. rewrite Ha. cbn [bind]. rewrite Hb. reflexivity.
Qed.

Theorem lc_restores :
  restores_detached (lc_made numel lincomb) anywhere lc_parameters lc_checkpoint
    (lc_load numel lincomb) l_sites.
Proof.
  split.
  - intros st0 st e l o M _. destruct (lc_load_eq st0 st e l o M) as (c & sites & Hc & E & Hs).
    rewrite E. eexists; split; [reflexivity|]. cbn [l_sites]. split; [|exact Hs].
    unfold lc_parameters. cbn [l_coeffs]. rewrite Hc. apply same_parameters_offs.
  - intros st0 st e l o st' M _. destruct (lc_load_eq st0 st e l o M) as (c & sites & Hc & E & Hs).
    rewrite E. intros H; injection H as <-. apply detached_offs.
Qed.

Lemma irreps_made (elem : pyv) irreps : irreps_of elem = Ok irreps -> set_eq irreps irreps = true.
Proof.
  intros _. unfold set_eq. assert (E : forallb (fun s => existsb (String.eqb s) irreps) irreps = true).
  { apply forallb_forall. intros s Hs. apply existsb_exists. exists s. split; [exact Hs|].
    now apply String.eqb_eq. }
  now rewrite E.
Qed.

Theorem lc_function_fails st e l o : lc_made numel lincomb st ->
  lc_load_function numel (store_checkpoint e l o (lc_checkpoint st)) = Err TypeError.
Proof.
  intros (elem & coeffs & le & H & Hl & d & k & t & Ec & Hin & Hn).
  unfold lc_new in H. bind_inv H. bind_inv H. injection H as <-.
  destruct (lc_build_coeffs _ _ _ _ Ha0) as (c & Hc).
  rewrite Ec in Hc. injection Hc as Hc. subst coeffs d.
  unfold lc_load_function. rewrite get_parameters_entry. cbn [bind].
  unfold lc_checkpoint. cbn [l_coeffs l_elem l_irreps].
  change (py_items (PDict [(KStr "coeffs", PDict (enc c)); (KStr "elem_tensors", elem); (KStr "pg_irreps", PSet a)]))
    with (@Ok (list (pykey * pyv)) [(KStr "coeffs", PDict (enc c)); (KStr "elem_tensors", elem); (KStr "pg_irreps", PSet a)]).
  cbn [bind].
  set (P := [(KStr "coeffs", PDict (enc c)); (KStr "elem_tensors", elem); (KStr "pg_irreps", PSet a)]).
  change (dmem P (KStr "coeffs")) with true. change (dmem P (KStr "elem_tensors")) with true.
  change (dmem P (KStr "pg_irreps")) with true. cbn [py_assert bind].
  change (py_get (PDict P) (KStr "elem_tensors")) with (Ok elem).
  change (py_get (PDict P) (KStr "coeffs")) with (@Ok pyv (PDict (enc c))). cbn [bind].
  assert (B : some_full numel elem (PDict (enc c)) = Ok true).
  { unfold some_full. rewrite Hl. cbn [bind py_values]. rewrite dvals_enc.
    rewrite (mapM_Ok_map _ (fun v => match v with PT t => Z.eqb (numel (t_val t)) (Z.of_nat (length le)) | _ => false end)).
    - cbn [bind]. f_equal. rewrite map_map. apply existsb_exists. exists true. split; [|reflexivity].
      apply in_map_iff. exists t. split; [cbn; now apply Z.eqb_eq|].
      apply in_map_iff. exists (k, t). split; [reflexivity|].
      unfold enc in Hin. apply in_map_iff in Hin.
      destruct Hin as ((k' & t') & E & Hin). inversion E; subst. exact Hin.
    - intros v Hv. apply in_map_iff in Hv. destruct Hv as (u & <- & _). reflexivity. }
  rewrite B. cbn [bind py_assert]. rewrite Ha. cbn [bind].
  change (py_get (PDict P) (KStr "pg_irreps")) with (@Ok pyv (PSet a)). cbn [bind].
  rewrite (irreps_made _ _ Ha). reflexivity.
Qed.

Theorem lc_function_never file st : lc_load_function (A:=A) numel file <> Ok st.
Proof. unfold lc_load_function. intros H. repeat bind_inv H. discriminate. Qed.

(** *** IPEPS_LC_BP *)
Variable dress : A -> A -> res A.
Theorem bp_fails :
  never_restores (bp_made lincomb dress) anywhere lc_checkpoint (bp_load lincomb dress).
Proof.
  intros st0 st e l o (elem & coeffs & H) _.
  unfold bp_new in H. bind_inv H. bind_inv H. bind_inv H. injection H as <-.
  unfold bp_build in Ha1. repeat bind_inv Ha1.
  unfold bp_load. rewrite get_parameters_entry. cbn [bind]. unfold lc_checkpoint.
  cbn [l_coeffs l_elem l_irreps].
  set (P := [(KStr "coeffs", coeffs); (KStr "elem_tensors", elem); (KStr "pg_irreps", PSet a0)]).
  change (py_items (PDict P)) with (Ok P). cbn [bind].
  change (dmem P (KStr "coeffs")) with true. cbv iota.
  change (py_get (PDict P) (KStr "coeffs")) with (Ok coeffs). cbn [bind].
  match goal with H : lincomb_t lincomb _ ?x = Ok _, Hx : py_get coeffs (KStr "site") = Ok ?x |- _ =>
    destruct (lincomb_t_tensor _ _ _ H) as (t & Et); rewrite Et in Hx; rename Hx into HT end.
  destruct coeffs as [ | | | | | | |d]; cbn in HT; try discriminate.
  cbn [py_items bind].
  unfold dget_exn in HT. destruct (dget d (KStr "site")) as [v|] eqn:G; [|discriminate].
  injection HT as ->.
  assert (Hin : In (KStr "site", PT t) d).
  { clear -G. induction d as [|[k v] d IH]; [discriminate|]. cbn [dget] in G.
    destruct (eq_dec (KStr "site") k); [injection G as ->; subst k; now left|right; auto]. }
  destruct (mapM _ d) as [d'|er] eqn:M; [|exists er; reflexivity].
  destruct (mapM_In _ _ _ _ M Hin) as (y & Ey & _). discriminate.
Qed.
End P.
