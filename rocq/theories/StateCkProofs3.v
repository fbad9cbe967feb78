(** Proofs about checkpoints of the kagome classes. *)
From Coq Require Import String List ZArith Bool Lia.
From Verif Require Import Base BaseLemmas StateCk StateCkSpec StateCkProofs StateCkProofs2.
Import ListNotations.
Open Scope list_scope.
Open Scope res_scope.

Section P.
Context {A : Type}.
Notation pyv := (pyv A).
Notation tens := (tens A).
Variable ipess : A -> A -> A -> A -> A -> res A.

Lemma dget_enc (c : list (pykey * tens)) k : dget (enc c) k = option_map PT (dget c k).
Proof.
  induction c as [|[k' t] c IH]; [reflexivity|]. cbn. destruct (eq_dec k k'); [reflexivity|exact IH].
Qed.
Lemma dget_offs (c : list (pykey * tens)) k : dget (offs c) k = option_map off (dget c k).
Proof.
  induction c as [|[k' t] c IH]; [reflexivity|]. cbn. destruct (eq_dec k k'); [reflexivity|exact IH].
Qed.
Lemma dkeys_enc (c : list (pykey * tens)) : dkeys (enc c) = map fst c.
Proof. unfold dkeys, enc. rewrite map_map. reflexivity. Qed.

Lemma kagome_site_offs c s : kagome_site ipess (PDict (enc c)) = Ok s ->
  exists s', kagome_site ipess (PDict (enc (offs c))) = Ok s' /\
  exists t t', s = PT t /\ s' = PT t' /\ t_val t' = t_val t.
Proof.
  unfold kagome_site, py_get, dget_exn. rewrite !dget_enc, !dget_offs.
  destruct (dget c (KStr "T_u")) as [tu|]; cbn [option_map bind]; [|discriminate].
  destruct (dget c (KStr "B_c")) as [bc|]; cbn [option_map bind]; [|discriminate].
  destruct (dget c (KStr "T_d")) as [td|]; cbn [option_map bind]; [|discriminate].
  destruct (dget c (KStr "B_b")) as [bb|]; cbn [option_map bind]; [|discriminate].
  destruct (dget c (KStr "B_a")) as [ba|]; cbn [option_map bind]; [|discriminate].
  cbn [tensor bind off t_val]. intros H. bind_inv H. rewrite Ha. cbn [bind]. injection H as <-.
  eexists; split; [reflexivity|]. do 2 eexists. repeat split.
Qed.

(** a dictionary of dictionaries of tensors *)
Definition enc2 (d : list (pykey * list (pykey * tens))) : list (pykey * pyv) :=
  map (fun kc => (fst kc, PDict (enc (snd kc)))) d.
Definition offs2 (d : list (pykey * list (pykey * tens))) := map (fun kc => (fst kc, offs (snd kc))) d.

Lemma kagome_build_offs d sites : kagome_build ipess (PDict (enc2 d)) = Ok sites ->
  exists sites', kagome_build ipess (PDict (enc2 (offs2 d))) = Ok sites' /\ same_sites sites sites'.
Proof.
  unfold kagome_build. cbn [py_items bind]. intros H. bind_inv H. injection H as <-.
  destruct (mapM_rel (fun x y => exists k c, x = (k, PDict (enc c)) /\ y = (k, PDict (enc (offs c)))) same_entry
     (fun ks : pykey * pyv => bind (kagome_site ipess (snd ks)) (fun s => Ok (fst ks, s)))
     (fun ks : pykey * pyv => bind (kagome_site ipess (snd ks)) (fun s => Ok (fst ks, s))))
     with (l := enc2 d) (l' := enc2 (offs2 d)) (ys := a) as (ys' & E & F).
  - intros x x' y (k & t & -> & ->) Hy. cbn [fst snd] in *. bind_inv Hy. injection Hy as <-.
    destruct (kagome_site_offs _ _ Ha0) as (s' & Es & t1 & t2 & E1 & E2 & E3). rewrite Es. cbn [bind].
    eexists; split; [reflexivity|]. split; [reflexivity|]. cbn [snd]. exists t1, t2. auto.
  - clear. induction d as [|[k t] d IH]; constructor; auto. exists k, t. split; reflexivity.
  - exact Ha.
  - rewrite E. cbn [bind]. eexists; split; [reflexivity|]. now apply same_entries_sites.
Qed.

Lemma keys_five_enc c : (forall k, In k (map fst c) <-> In k five) -> keys_five (A:=A) (enc c) = true.
Proof.
  intros H. unfold keys_five. apply andb_true_iff. split.
  - apply forallb_forall. intros k Hk. rewrite dkeys_enc in Hk. apply H in Hk.
    apply existsb_exists. exists k. split; [exact Hk|]. now apply eqb_true.
  - apply forallb_forall. intros k Hk. apply H in Hk. unfold dmem. rewrite dget_enc.
    destruct (dget c k) eqn:E; [reflexivity|]. exfalso.
    clear -Hk E. induction c as [|[k' t] c IH]; [contradiction|]. cbn in *.
    destruct (eq_dec k k'); [discriminate|]. destruct Hk; [congruence|auto].
Qed.

Lemma kag_made_enc2 st : kag_made ipess st ->
  exists d, k_ipess st = PDict (enc2 d) /\ keys_five (enc2 d) = false /\
    (forall k c, In (k, c) d -> keys_five (enc c) = true) /\
    kagome_build ipess (PDict (enc2 d)) = Ok (k_sites st).
Proof.
  intros (ip & H & F). unfold kag_new in H. bind_inv H. cbv zeta in H. bind_inv H. injection H as <-.
  cbn [k_ipess k_sites] in *.
  assert (G : exists d, (if keys_five a then PDict [(KCoord (0, 0)%Z, ip)] else ip) = PDict d /\ keys_five d = false).
  { destruct ip; cbn in Ha; try discriminate. injection Ha as <-.
    destruct (keys_five d) eqn:K; [|eauto]. eexists; split; [reflexivity|]. reflexivity. }
  destruct G as (d & Hd & K). rewrite Hd in *.
  assert (S : exists e, d = enc2 e /\ forall k c, In (k, c) e -> keys_five (enc c) = true).
  { specialize (F d). clear -F. induction d as [|[k s] d IH].
    - exists []. split; [reflexivity|]. intros k c [].
    - destruct (F k s eq_refl (or_introl eq_refl)) as (c & Hc & Hk). red in Hc. fold (enc c) in Hc. subst s.
      destruct IH as (e & -> & He).
      { intros k' s' _ Hin. apply (F k' s' eq_refl). now right. }
      exists ((k, c) :: e). split; [reflexivity|]. intros k' c' [E|E]; [|eauto].
      inversion E; subst. now apply keys_five_enc. }
  destruct S as (e & -> & He). exists e. auto.
Qed.

Lemma kag_load_eq st0 st e l o : kag_made ipess st ->
  exists d sites, k_ipess st = PDict (enc2 d) /\
    kag_load ipess st0 (store_checkpoint e l o (kag_checkpoint st)) =
      Ok (mk_kag (PDict (enc2 (offs2 d))) sites) /\ same_sites (k_sites st) sites.
Proof.
  intros M. destruct (kag_made_enc2 st M) as (d & Hd & K & F & B).
  destruct (kagome_build_offs _ _ B) as (sites & B' & S).
  exists d, sites. split; [exact Hd|]. split; [|exact S].
  unfold kag_load, kag_checkpoint. rewrite get_parameters_entry. cbn [bind]. rewrite Hd.
  cbn [py_items bind]. rewrite K.
  assert (E1 : mapM (fun ks : pykey * pyv => bind (py_items (snd ks)) (fun s => py_assert (keys_five s))) (enc2 d)
     = Ok (map (fun _ => tt) (enc2 d))).
  { apply mapM_Ok_map. intros x Hx. unfold enc2 in Hx. apply in_map_iff in Hx.
    destruct Hx as ((k & c) & <- & Hin). cbn [snd py_items bind]. rewrite (F _ _ Hin). reflexivity. }
  rewrite E1. cbn [bind py_items].
  assert (E2 : mapM (fun ks : pykey * pyv => bind (values_off (snd ks)) (fun s => Ok (fst ks, s))) (enc2 d)
     = Ok (enc2 (offs2 d))).
  { clear. induction d as [|[k c] d IH]; [reflexivity|]. cbn [enc2 map mapM fst snd].
    rewrite values_off_enc. cbn [bind]. fold (enc2 d). rewrite IH. reflexivity. }
  rewrite E2. cbn [bind]. rewrite B'. reflexivity.
Qed.

Lemma kag_parameters_enc2 d s : kag_parameters (mk_kag (PDict (enc2 d)) s) =
  Ok (map PT (List.concat (map (fun kc => map snd (snd kc)) d))).
Proof.
  unfold kag_parameters. cbn [k_ipess py_values bind].
  assert (E : mapM py_values (dvals (enc2 d)) = Ok (map (fun kc => map PT (map snd (snd kc))) d)).
  { induction d as [|[k c] d IH]; [reflexivity|]. unfold dvals, enc2 in *. cbn [map mapM fst snd py_values bind].
    rewrite IH. cbn [bind]. rewrite dvals_enc. reflexivity. }
  rewrite E. cbn [bind]. rewrite concat_map, map_map. reflexivity.
Qed.

Theorem kag_restores :
  restores_detached (kag_made ipess) anywhere kag_parameters kag_checkpoint (kag_load ipess) k_sites.
Proof.
  split.
  - intros st0 st e l o M _. destruct (kag_load_eq st0 st e l o M) as (d & sites & Hd & E & S).
    rewrite E. eexists; split; [reflexivity|]. cbn [k_sites]. split; [|exact S].
    destruct st as [ip s0]. cbn [k_ipess] in Hd. subst ip. rewrite !kag_parameters_enc2.
    do 4 eexists. repeat split; try reflexivity.
    rewrite !concat_map. f_equal. unfold offs2. rewrite !map_map. apply map_ext. intros [k c].
    cbn [snd]. apply t_val_offs.
  - intros st0 st e l o st' M _. destruct (kag_load_eq st0 st e l o M) as (d & sites & Hd & E & S).
    rewrite E. intros H; injection H as <-. rewrite kag_parameters_enc2. eexists; split; [reflexivity|].
    intros t Ht. apply in_map_iff in Ht. destruct Ht as (u & Eu & Hin). inversion Eu; subst u.
    apply in_concat in Hin. destruct Hin as (lt & Hl & Hin). unfold offs2 in Hl.
    rewrite map_map in Hl. apply in_map_iff in Hl. destruct Hl as ((k & c) & <- & _).
    cbn [snd] in Hin. unfold offs in Hin. rewrite map_map in Hin. apply in_map_iff in Hin.
    destruct Hin as (x & <- & _). reflexivity.
Qed.

(** *** IPESS_KAGOME_PG *)
Ltac walk := repeat (cbn -[klc_elem] in *;
  match goal with
  | H : bind _ _ = Ok _ |- _ => bind_inv H
  | H : Ok _ = Ok _ |- _ => injection H; clear H; intros; subst
  end).
Lemma kpg_load_eq st0 st e l o : kpg_made ipess st -> kpg_fits st0 st ->
  exists c st', p_elem st = PDict (enc c) /\
    kpg_load ipess st0 (store_checkpoint e l o (kpg_checkpoint st)) = Ok st' /\
    p_elem st' = PDict (enc (offs c)) /\ same_sites (p_sites st) (p_sites st').
Proof.
  intros (symm & ud & bs & tu & bc & td & ba & bb & H) (F1 & F2).
  unfold kpg_new in H. destruct ud, bs; walk; cbn in F1, F2;
    [eexists [(KStr "T_u", _); (KStr "B_c", _)]
    |eexists [(KStr "T_u", _); (KStr "B_c", _); (KStr "B_a", _); (KStr "B_b", _)]
    |eexists [(KStr "T_u", _); (KStr "B_c", _); (KStr "T_d", _)]
    |eexists [(KStr "T_u", _); (KStr "B_c", _); (KStr "T_d", _); (KStr "B_a", _); (KStr "B_b", _)]];
    eexists; (split; [reflexivity|]); unfold kpg_load; cbn; rewrite F1, F2; cbn;
    match goal with H : ipess _ _ _ _ _ = Ok _ |- _ => rewrite H end; cbn;
    (split; [reflexivity|]); (split; [reflexivity|]);
    eexists [(KCoord (0, 0)%Z, _)], [(KCoord (0, 0)%Z, _)]; repeat split; reflexivity.
Qed.

Theorem kpg_restores :
  restores_detached (kpg_made ipess) kpg_fits kpg_parameters kpg_checkpoint (kpg_load ipess) p_sites.
Proof.
  split.
  - intros st0 st e l o M F. destruct (kpg_load_eq st0 st e l o M F) as (c & st' & Hc & E & Hc' & S).
    rewrite E. eexists; split; [reflexivity|]. split; [|exact S].
    unfold kpg_parameters. rewrite Hc, Hc'. apply same_parameters_offs.
  - intros st0 st e l o st' M F. destruct (kpg_load_eq st0 st e l o M F) as (c & st1 & Hc & E & Hc' & S).
    rewrite E. intros H; injection H as <-. unfold kpg_parameters. rewrite Hc'. apply detached_offs.
Qed.

(** files of older versions with three bond tensors *)
Theorem kpg_legacy_fails st0 e l o (u b1 b2 b3 : pyv) d :
  dmem d (KStr "BOND_S") = false ->
  kpg_load ipess st0 (store_checkpoint e l o
    (PDict ([(KStr "UP_T", u); (KStr "BOND_S1", b1); (KStr "BOND_S2", b2); (KStr "BOND_S3", b3)] ++ d)))
  = Err NameError.
Proof.
  intros E.
  unfold kpg_load. rewrite get_parameters_entry. cbn [bind]. unfold kpg_elem. cbn [py_items bind].
  set (D := _ ++ d).
  assert (E1 : dmem D (KStr "BOND_S") = false).
  { unfold D, dmem in *. cbn. exact E. }
  rewrite E1. change (dmem D (KStr "BOND_S1")) with true. change (dmem D (KStr "UP_T")) with true.
  change (dmem D (KStr "BOND_S2")) with true. change (dmem D (KStr "BOND_S3")) with true.
  cbn [andb]. change (py_get (PDict D) (KStr "UP_T")) with (Ok u).
  change (py_get (PDict D) (KStr "BOND_S1")) with (Ok b1). cbn [bind].
  destruct (dmem D (KStr "DOWN_T") && negb (p_ud st0)) eqn:G; [|reflexivity].
  apply andb_true_iff in G. destruct G as (G & _). unfold dmem in G. unfold py_get, dget_exn.
  destruct (dget D (KStr "DOWN_T")); [reflexivity|discriminate].
Qed.

(** *** IPESS_KAGOME_PG_LC *)
Variable lincomb : list (bool * A) -> A -> res A.

Lemma klc_elem_enc pgs coeffs basis elem : klc_elem lincomb pgs coeffs basis = Ok elem ->
  exists c, elem = PDict (enc c).
Proof.
  unfold klc_elem. intros H. bind_inv H. bind_inv H. injection H as <-.
  destruct (all_tensors a0) as (c & ->); [|eauto].
  apply mapM_ok in Ha0. clear -Ha0. induction Ha0 as [|x y l l' Hx _ IH]; intros z [].
  - subst z. destruct (fst x); [|discriminate]. bind_inv Hx. bind_inv Hx. bind_inv Hx. injection Hx as <-.
    cbn [snd]. unfold lincomb_t in Ha1. bind_inv Ha1. bind_inv Ha1. injection Ha1 as <-. eauto.
  - auto.
Qed.

Lemma kagome_build_tensor k t d : In (k, PT t) d -> exists e, kagome_build ipess (PDict d) = Err e.
Proof.
  intros Hin. unfold kagome_build. cbn [py_items bind].
  destruct (mapM _ d) as [ys|er] eqn:M; [|exists er; reflexivity].
  destruct (mapM_In _ _ _ _ M Hin) as (y & Ey & _). discriminate.
Qed.

Lemma In_dset (d : list (pykey * pyv)) k v : In (k, v) (dset d k v).
Proof.
  induction d as [|[k' v'] d IH]; [now left|]. cbn. destruct (eq_dec k k'); [subst; now left|now right].
Qed.
Lemma In_dset_other (d : list (pykey * pyv)) k v k' v' : In (k, v) d -> k <> k' -> In (k, v) (dset d k' v').
Proof.
  induction d as [|[k2 v2] d IH]; intros [] Hk; cbn; destruct (eq_dec k' k2); subst.
  - inversion H; subst. congruence.
  - left; assumption.
  - right; assumption.
  - right; auto.
Qed.

Theorem klc_update_fails ud bs pgs coeffs basis : ud && bs = false ->
  exists e, klc_update lincomb ipess ud bs pgs coeffs basis = Err e.
Proof.
  intros F. unfold klc_update.
  destruct (klc_elem lincomb pgs coeffs basis) as [elem|er] eqn:E; [|exists er; reflexivity].
  destruct (klc_elem_enc _ _ _ _ E) as (c & ->). cbn [bind].
  unfold py_get, dget_exn. rewrite !dget_enc.
  destruct (dget c (KStr "T_u")) as [tu|]; cbn [option_map bind]; [|eauto].
  destruct (dget c (KStr "B_c")) as [bc|]; cbn [option_map bind]; [|eauto].
  set (ip := [_]). clearbody ip.
  destruct bs; [destruct ud; [discriminate|]|].
  - destruct (dget c (KStr "T_d")) as [td|]; cbn [option_map bind]; [|eauto].
    destruct (kagome_build_tensor (KStr "T_d") td (dset ip (KStr "T_d") (PT td))) as (e & He).
    { apply In_dset. }
    rewrite He. exists e. reflexivity.
  - match goal with |- exists e, bind ?m _ = _ => destruct m as [ip2|er] end; cbn [bind]; [|eauto].
    destruct (dget c (KStr "B_b")) as [bb|]; cbn [option_map bind]; [|eauto].
    destruct (dget c (KStr "B_a")) as [ba|]; cbn [option_map bind]; [|eauto].
    destruct (kagome_build_tensor (KStr "B_a") ba
       (dset (dset ip2 (KStr "B_b") (PT bb)) (KStr "B_a") (PT ba))) as (e & He).
    { apply In_dset. }
    rewrite He. exists e. reflexivity.
Qed.

Theorem klc_fails :
  never_restores (fun st => ~ klc_equal st) klc_fits klc_checkpoint (klc_load lincomb ipess).
Proof.
  intros st0 st e l o N (F1 & F2 & F3). unfold klc_load. rewrite get_parameters_entry. cbn [bind].
  change (py_get (klc_checkpoint st) (KStr "coeffs")) with (Ok (c_coeffs st)).
  change (py_get (klc_checkpoint st) (KStr "basis_t")) with (Ok (c_basis st)). cbn [bind].
  apply klc_update_fails. rewrite F1, F2. unfold klc_equal in N.
  destruct (c_ud st), (c_bs st); try reflexivity. exfalso; auto.
Qed.

Lemma klc_new_equal pgs tu bc td ba bb st :
  klc_new lincomb ipess true true pgs tu bc td ba bb = Ok st ->
  exists eu ec s,
    c_ud st = true /\ c_bs st = true /\ c_pgs st = pgs /\
    c_coeffs st = PDict (enc [(KStr "T_u", fst tu); (KStr "B_c", fst bc)]) /\
    c_basis st = PDict [(KStr "T_u", snd tu); (KStr "B_c", snd bc)] /\
    klc_elem lincomb pgs (c_coeffs st) (c_basis st) = Ok (PDict (enc [(KStr "T_u", eu); (KStr "B_c", ec)])) /\
    ipess (t_val eu) (t_val ec) (t_val eu) (t_val ec) (t_val ec) = Ok s /\
    exists g, c_sites st = PDict (enc [(KCoord (0, 0)%Z, mkt s g)]).
Proof.
  intros H. unfold klc_new in H. cbn [bind] in H. bind_inv H. clear a Ha.
  bind_inv H. rename Ha into HE.
  destruct (klc_elem_enc _ _ _ _ HE) as (c & ->).
  cbn [map fst snd] in *.
  assert (K : map fst c = [KStr "T_u"; KStr "B_c"]).
  { clear -HE. unfold klc_elem in HE. cbn [py_items bind mapM fst snd] in HE. repeat bind_inv HE.
    repeat bind_inv Ha. injection HE as HE. injection Ha as <-.
    repeat match goal with H : bind _ _ = Ok _ |- _ => bind_inv H end.
    repeat match goal with H : Ok _ = Ok _ |- _ => injection H as <- end.
    assert (X := f_equal (map fst) HE). unfold enc in X. cbn [map fst] in X. rewrite map_map in X.
    cbn [fst] in X. symmetry. exact X. }
  destruct c as [|[k1 eu] [|[k2 ec] [|]]]; try discriminate. cbn in K. injection K as -> ->.
  cbn in H. bind_inv H. injection H as <-. walk.
  exists eu, ec. eexists. cbn [c_ud c_bs c_pgs c_coeffs c_basis c_sites].
  repeat split; try eassumption. eexists; reflexivity.
Qed.

Theorem klc_restores :
  restores (fun st => klc_made lincomb ipess st /\ klc_equal st) klc_fits klc_parameters klc_checkpoint
    (klc_load lincomb ipess) c_sites.
Proof.
  intros st0 st e l o ((ud & bs & pgs & tu & bc & td & ba & bb & H) & (E1 & E2)) (F1 & F2 & F3).
  assert (X : ud = true /\ bs = true).
  { unfold klc_new in H. repeat bind_inv H. injection H as <-. cbn in E1, E2. auto. }
  destruct X as (-> & ->).
  destruct (klc_new_equal _ _ _ _ _ _ _ H) as (eu & ec & s & _ & _ & P & C & B & L & I & g & S).
  unfold klc_load. rewrite get_parameters_entry. cbn [bind].
  change (py_get (klc_checkpoint st) (KStr "coeffs")) with (Ok (c_coeffs st)).
  change (py_get (klc_checkpoint st) (KStr "basis_t")) with (Ok (c_basis st)). cbn [bind].
  rewrite F1, F2, F3, E1, E2, P. unfold klc_update. rewrite L. cbn. rewrite I. cbn.
  eexists; split; [reflexivity|]. unfold klc_parameters. cbn [c_coeffs c_sites]. split.
  - rewrite C. cbn. exists [PT (fst tu); PT (fst bc)], [PT (fst tu); PT (fst bc)].
    exists [fst tu; fst bc], [fst tu; fst bc]. repeat split.
  - rewrite S. eexists [(KCoord (0, 0)%Z, _)], [(KCoord (0, 0)%Z, _)]. repeat split; reflexivity.
Qed.

(** the flags of the parameters stay as they were stored *)
Theorem klc_keeps_grad st0 st e l o st' :
  klc_load lincomb ipess st0 (store_checkpoint e l o (klc_checkpoint st)) = Ok st' ->
  klc_parameters st' = klc_parameters st.
Proof.
  unfold klc_load. rewrite get_parameters_entry. cbn [bind].
  change (py_get (klc_checkpoint st) (KStr "coeffs")) with (Ok (c_coeffs st)).
  change (py_get (klc_checkpoint st) (KStr "basis_t")) with (Ok (c_basis st)). cbn [bind].
  unfold klc_update. intros H. repeat bind_inv H. injection H as <-. reflexivity.
Qed.

Theorem klc_create_eq ud bs pgs tu bc td ba bb st e l o :
  klc_new lincomb ipess ud bs pgs tu bc td ba bb = Ok st ->
  klc_create lincomb ipess ud bs pgs (store_checkpoint e l o (klc_checkpoint st)) = Ok st.
Proof.
  intros H. assert (H0 := H). unfold klc_new in H.
  bind_inv H. rename Ha into H1. bind_inv H. rename Ha into H2. repeat bind_inv H.
  injection H as <-. unfold klc_create. rewrite get_parameters_entry. cbn [bind].
  unfold klc_checkpoint. cbn [c_coeffs c_basis].
  destruct tu as [ctu btu], bc as [cbc bbc].
  destruct ud, bs; cbn [bind] in H1, H2.
  - injection H1 as <-. injection H2 as <-. cbn -[klc_new]. exact H0.
  - injection H1 as <-. destruct ba as [[cba bba]|]; [|discriminate]. destruct bb as [[cbb bbb]|]; [|discriminate].
    cbn in H2. injection H2 as <-. cbn -[klc_new]. exact H0.
  - destruct td as [[ctd btd]|]; [|discriminate]. cbn in H1. injection H1 as <-. injection H2 as <-.
    cbn -[klc_new]. exact H0.
  - destruct td as [[ctd btd]|]; [|discriminate]. cbn in H1. injection H1 as <-.
    destruct ba as [[cba bba]|]; [|discriminate]. destruct bb as [[cbb bbb]|]; [|discriminate].
    cbn in H2. injection H2 as <-. cbn -[klc_new]. exact H0.
Qed.
End P.
