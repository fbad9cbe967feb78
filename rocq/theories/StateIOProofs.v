(** Proofs about state files. *)
From Verif Require Import Base BaseLemmas Text TextLemmas Tensor TensorLemmas TensorIO TensorIOProofs
  Lattice LatticeSpec LatticeProofs LatticeProofs2 StateIO StateIOSpec.
Open Scope nat_scope.
Open Scope list_scope.
Open Scope res_scope.

Lemma site_id_inj n m : site_id n = site_id m -> n = m.
Proof. unfold site_id; cbn [append]; intros He. injection He; intros Hp.
  assert (Hn := parse_print n). rewrite Hp, parse_print in Hn. injection Hn; intros; lia. Qed.

Lemma periodic_mod {A} (f : coord -> A) (lX lY : Z) : (0 < lX)%Z -> (0 < lY)%Z ->
  (forall v, f (cadd v (lX, 0%Z)) = f v /\ f (cadd v (0%Z, lY)) = f v) ->
  forall v, f ((fst v mod lX)%Z, (snd v mod lY)%Z) = f v.
Proof. intros HX HY Hp.
  assert (HpX : forall n x y, f ((x + Z.of_nat n * lX)%Z, y) = f (x, y)).
  { induction n as [|n IH]; intros x y; [f_equal; f_equal; lia|].
    rewrite <- (IH x y). destruct (Hp ((x + Z.of_nat n * lX)%Z, y)) as [H1 _]. rewrite <- H1.
    unfold cadd; cbn [fst snd]. f_equal; f_equal; lia. }
  assert (HpY : forall n x y, f (x, (y + Z.of_nat n * lY)%Z) = f (x, y)).
  { induction n as [|n IH]; intros x y; [f_equal; f_equal; lia|].
    rewrite <- (IH x y). destruct (Hp (x, (y + Z.of_nat n * lY)%Z)) as [_ H1]. rewrite <- H1.
    unfold cadd; cbn [fst snd]. f_equal; f_equal; lia. }
  assert (HX' : forall x y, f ((x mod lX)%Z, y) = f (x, y)).
  { intros x y. assert (Hx := Z.div_mod x lX ltac:(lia)). destruct (Z_le_gt_dec 0 (x / lX)) as [Hq|Hq].
    - rewrite <- (HpX (Z.to_nat (x / lX)) (x mod lX)%Z y). f_equal; f_equal. lia.
    - rewrite <- (HpX (Z.to_nat (- (x / lX))) x y). f_equal; f_equal. lia. }
  assert (HY' : forall x y, f (x, (y mod lY)%Z) = f (x, y)).
  { intros x y. assert (Hy := Z.div_mod y lY ltac:(lia)). destruct (Z_le_gt_dec 0 (y / lY)) as [Hq|Hq].
    - rewrite <- (HpY (Z.to_nat (y / lY)) x (y mod lY)%Z). f_equal; f_equal. lia.
    - rewrite <- (HpY (Z.to_nat (- (y / lY))) x y). f_equal; f_equal. lia. }
  intros [x y]; cbn [fst snd]. rewrite HX', HY'. reflexivity. Qed.

Section P.
Context {R : Type}.
Variables (zero : R) (add : R -> R -> R).
Variable fmt : R -> string.
Variable parse : string -> option R.
Variable fmtc : R * R -> string.
Variable parsec : string -> option (R * R).
Variable normalized : ten R -> ten R.
Hypothesis parse_fmt : forall x, parse (fmt x) = Some x.
Hypothesis fmt_token : forall x, token (fmt x) = true.
Hypothesis parsec_fmtc : forall z, parsec (fmtc z) = Some z.
Hypothesis add_zero_l : forall x, add zero x = x.

Notation write := (write_ipeps fmt fmtc normalized).
Notation read := (read_ipeps zero add parse parsec).

(** an on-site tensor: physical index and four auxiliary ones *)
Definition onsite (t : ten R) : Prop := ten_wf t /\ length (ten_dims t) = 5.

Definition ser (f : io_format) (t : ten R) : jtensor :=
  match f with Flegacy => serialize_legacy fmt t | _ => serialize_1d fmt fmtc t end.

Lemma serialize_ok f t : f <> Fother -> serialize fmt fmtc f t = Ok (ser f t).
Proof. destruct f; [reflexivity|reflexivity|congruence]. Qed.

Lemma read_tensor_ser f t X : f <> Fother -> ten_wf t ->
  read_tensor zero add parse parsec (ser f t) X = Ok t.
Proof. intros Hf Hw. destruct f; [| |congruence]; unfold ser, read_tensor.
  - replace (j_format (serialize_legacy fmt t)) with (@None string) by (destruct t; reflexivity).
    apply read_legacy_serialize; assumption.
  - replace (j_format (serialize_1d fmt fmtc t)) with (Some "1D"%string) by (destruct t; reflexivity).
    replace (eqb "1D"%string "1D"%string) with true by reflexivity.
    apply read_1d_serialize; assumption. Qed.

Lemma ten_permute_id t : onsite t -> ten_permute zero t (0 :: map S aux_default) = Ok t.
Proof. intros [Hw Hl]. destruct t as [t|t]; unfold ten_permute, ten_dims in *;
    replace (0 :: map S aux_default) with (seq 0 (length (tdims t))) by (rewrite Hl; reflexivity);
    rewrite tpermute_id by exact Hw; reflexivity. Qed.

Definition numbered {A} (l : list A) : list (nat * A) := combine (seq 0 (length l)) l.

Lemma In_numbered {A} (l : list A) n a : In (n, a) (numbered l) <-> nth_error l n = Some a.
Proof. unfold numbered.
  assert (Hg : forall s, In (n, a) (combine (seq s (length l)) l) <-> s <= n /\ nth_error l (n - s) = Some a).
  { induction l as [|b l IH]; intros s; cbn [length seq combine].
    - split; [intros []|intros [_ Hx]; destruct (n - s); discriminate].
    - cbn [In]. rewrite IH. split.
      + intros [He|[Hs Hn]]; [inv He; split; [lia|]; now rewrite Nat.sub_diag|].
        split; [lia|]. replace (n - s) with (S (n - S s)) by lia. exact Hn.
      + intros [Hs Hn]. destruct (Nat.eq_dec n s) as [->|Hne].
        * rewrite Nat.sub_diag in Hn; cbn in Hn. left; congruence.
        * right; split; [lia|]. replace (n - s) with (S (n - S s)) in Hn by lia. exact Hn. }
  rewrite Hg, Nat.sub_0_r. intuition lia. Qed.

Lemma map_snd_numbered {A} (l : list A) : map snd (numbered l) = l.
Proof. unfold numbered. generalize 0. induction l as [|a l IH]; intros s; cbn; [reflexivity|].
  now rewrite IH. Qed.

Lemma map_fst_numbered {A} (l : list A) : map fst (numbered l) = seq 0 (length l).
Proof. unfold numbered. generalize 0. induction l as [|a l IH]; intros s; cbn; [reflexivity|].
  now rewrite IH. Qed.

Lemma find_site_app l1 l2 id :
  find_site (l1 ++ l2) id =
  fold_left (fun acc s => if eqb (fst s) id then Some (snd s) else acc) l2 (find_site l1 id).
Proof. unfold find_site. apply fold_left_app. Qed.

Lemma find_site_In l id jt : NoDup (map fst l) -> In (id, jt) l -> find_site l id = Some jt.
Proof. unfold find_site. generalize (@None jtensor). induction l as [|[i j] l IH]; intros acc Hn Hi; [contradiction|].
  cbn in Hn. apply NoDup_cons_iff in Hn; destruct Hn as [Hni Hn]. destruct Hi as [He|Hi].
  - inv He. cbn [fold_left fst snd].
    replace (eqb id id) with true by (symmetry; apply (eqb_true id id); reflexivity).
    assert (Hkeep : forall l acc, ~ In id (map fst l) ->
      fold_left (fun (acc : option jtensor) s => if eqb (fst s) id then Some (snd s) else acc) l acc = acc).
    { clear. induction l as [|[i j] l IH]; intros acc Hx; [reflexivity|]. cbn [fold_left fst].
      destruct (eqb i id) eqn:E; [apply (eqb_true i id) in E; exfalso; apply Hx; left; exact E|].
      apply IH; intros Hy; apply Hx; right; exact Hy. }
    apply Hkeep; exact Hni.
  - cbn [fold_left]. apply IH; assumption. Qed.

Lemma read_loop cd f js (nl : list (nat * (coord * ten R))) d X :
  f <> Fother ->
  (forall n c t, In (n, (c, t)) nl -> find_site js (site_id n) = Some (ser f t) /\ onsite t /\
     promote zero cd t = t) ->
  NoDup (map (fun x => fst (snd x)) nl) ->
  (forall c, In c (map (fun x => fst (snd x)) nl) -> dget d c = None) ->
  exists X', foldM (read_step zero add parse parsec cd (map S aux_default) js)
     (map (fun nc => let '(nid, (c, site)) := nc in (site_id nid, c)) nl) (d, X)
   = Ok (d ++ map snd nl, X').
Proof. intros Hf. revert d X. induction nl as [|[n [c t]] nl IH]; intros d X Hs Hn Hd.
  - exists X; cbn. now rewrite app_nil_r.
  - cbn [map foldM]. destruct (Hs n c t (or_introl eq_refl)) as (Hfs & Ho & Hp).
    unfold read_step at 1. cbn [fst snd]. rewrite Hfs.
    rewrite read_tensor_ser; [|exact Hf|apply Ho]. cbn [bind].
    rewrite ten_permute_id by exact Ho. cbn [bind]. rewrite Hp.
    cbn [map fst snd] in Hn, Hd. apply NoDup_cons_iff in Hn; destruct Hn as [Hc Hn].
    rewrite dset_new by (apply Hd; left; reflexivity).
    destruct (IH (d ++ [(c, t)]) (Some t)) as [X' HX'].
    + intros m c' t' Hi. exact (Hs m c' t' (or_intror Hi)).
    + exact Hn.
    + intros c' Hc'. rewrite <- (dset_new d c t) by (apply Hd; left; reflexivity).
      rewrite dget_dset_other by (intros ->; contradiction). apply Hd; right; exact Hc'.
    + exists X'. rewrite HX'. now rewrite <- app_assoc. Qed.

Lemma nth_error_zrange_None n z : (n <= z)%Z -> (0 <= z)%Z -> nth_error (zrange n) (Z.to_nat z) = None.
Proof. intros Hz H0. apply nth_error_None. rewrite length_zrange. lia. Qed.

(** ** the main theorem *)
Theorem state_roundtrip f cd st sites :
  f <> Fother -> regular st sites ->
  (forall c t, In (c, t) sites -> onsite t /\ promote zero cd t = t) ->
  uniform ten_cplx ten_device sites = true ->
  exists js st',
    write f aux_default false st = Ok js /\ read cd None aux_default js = Ok st' /\
    i_sites st' = Some sites /\ i_lX st' = i_lX st /\ i_lY st' = i_lY st /\
    forall v, i_v2s st' v = i_v2s st v.
Proof. intros Hf [Hsites Hnd [HX HY] Htot Hfix Hcell Hper Htrans] Hons Hunif.
  set (lX := i_lX st) in *. set (lY := i_lY st) in *.
  set (nl := numbered sites).
  set (smap := map (fun nc : nat * (coord * ten R) => let '(nid, (c, site)) := nc in (site_id nid, c)) nl).
  set (js := map (fun nc : nat * (coord * ten R) => let '(nid, (c, site)) := nc in (site_id nid, ser f site)) nl).
  set (u2i := dict_of (map (fun ic : string * coord => (snd ic, fst ic)) smap)).
  (* identifiers *)
  assert (Hkeys : map (fun x : nat * (coord * ten R) => fst (snd x)) nl = dkeys sites).
  { unfold nl, dkeys. rewrite <- (map_snd_numbered sites) at 2. rewrite map_map. reflexivity. }
  assert (Hu : u2i = map (fun ic : string * coord => (snd ic, fst ic)) smap).
  { unfold u2i. apply dict_of_nodup. rewrite map_map. cbn [fst]. unfold smap. rewrite map_map.
    rewrite (map_ext _ (fun x : nat * (coord * ten R) => fst (snd x))) by (intros [n [c t]]; reflexivity).
    rewrite Hkeys; exact Hnd. }
  assert (Hudom : dkeys u2i = dkeys sites).
  { rewrite Hu. unfold dkeys at 1. rewrite map_map. cbn [fst]. unfold smap. rewrite map_map.
    rewrite (map_ext _ (fun x : nat * (coord * ten R) => fst (snd x))) by (intros [n [c t]]; reflexivity).
    exact Hkeys. }
  assert (Hid : forall k s, dget u2i k = Some s -> exists n, s = site_id n /\ nth_error (dkeys sites) n = Some k).
  { intros k s Hk. apply dget_In in Hk. rewrite Hu in Hk. apply in_map_iff in Hk.
    destruct Hk as ([i c] & He & Hk). cbn in He. inv He. unfold smap in Hk. apply in_map_iff in Hk.
    destruct Hk as ([n [c t]] & He & Hk). inv He. exists n; split; [reflexivity|].
    unfold nl in Hk. apply In_numbered in Hk. unfold dkeys. rewrite nth_error_map, Hk. reflexivity. }
  assert (Hinj : forall k k' s, dget u2i k = Some s -> dget u2i k' = Some s -> k = k').
  { intros k k' s H1 H2. destruct (Hid _ _ H1) as (n & -> & Hn). destruct (Hid _ _ H2) as (m & He & Hm).
    apply site_id_inj in He; subst m. congruence. }
  assert (Hudef : forall k, In k (dkeys sites) -> exists s, dget u2i k = Some s).
  { intros k Hk. apply dget_Some_key. rewrite Hudom; exact Hk. }
  (* labels of vertices *)
  set (lab := fun v : coord => match i_v2s st v with
                       | Ok k => match dget u2i k with Some s => s | None => ""%string end
                       | Err _ => ""%string end).
  assert (Hlab : forall v k, i_v2s st v = Ok k -> dget u2i k = Some (lab v)).
  { intros v k Hv. unfold lab. rewrite Hv. destruct (Htot v) as (k' & Hk' & Hin).
    rewrite Hv in Hk'; inv Hk'. destruct (Hudef _ Hin) as [s ->]. reflexivity. }
  set (rows := map (fun y => map (fun x => lab (x, y)) (zrange lX)) (zrange lY)).
  assert (Hrect : rectangular rows).
  { intros r1 r2 H1 H2. unfold rows in H1, H2. apply in_map_iff in H1, H2.
    destruct H1 as (y1 & <- & _), H2 as (y2 & <- & _). now rewrite !map_length. }
  assert (Hlen : length rows = Z.to_nat lY) by (unfold rows; now rewrite map_length, length_zrange).
  assert (Hne : rows <> []) by (intros He; rewrite He in Hlen; cbn in Hlen; lia).
  assert (HnX : nXof rows = lX).
  { unfold nXof. destruct rows as [|r0 rs] eqn:E; [congruence|].
    assert (Hr : In r0 rows) by (rewrite E; left; reflexivity). clear E.
    assert (Hr' : In r0 (map (fun y => map (fun x => lab (x, y)) (zrange lX)) (zrange lY)) -> Z.of_nat (length r0) = lX).
    { intros Hi. apply in_map_iff in Hi. destruct Hi as (y & <- & _). rewrite map_length, length_zrange. lia. }
    first [exact (Hr' Hr) | apply Hr'; assumption]. }
  assert (HnY : nYof rows = lY) by (unfold nYof; rewrite Hlen; lia).
  assert (Htile : forall v, tile rows v = Some (lab v)).
  { intros v. unfold tile. rewrite Hlen. rewrite Z2Nat.id by lia.
    assert (Hy := Z.mod_pos_bound (snd v) lY HY). assert (Hx := Z.mod_pos_bound (fst v) lX HX).
    unfold rows. rewrite nth_error_map, nth_error_zrange by exact Hy. cbn [option_map].
    rewrite map_length, length_zrange, Z2Nat.id by lia.
    rewrite nth_error_map, nth_error_zrange by exact Hx. cbn [option_map]. f_equal.
    assert (Hpm := periodic_mod (i_v2s st) lX lY HX HY Hper v). unfold lab. now rewrite Hpm. }
  assert (Hlc : locally_consistent rows).
  { intros v w d _ He. rewrite !Htile in He. injection He; intros He'. rewrite !Htile. f_equal.
    destruct (Htot v) as (k & Hk & _), (Htot w) as (k' & Hk' & _).
    assert (k = k').
    { apply (Hinj k k' (lab v)); [apply Hlab; exact Hk|]. rewrite He'. apply Hlab; exact Hk'. }
    subst k'. unfold lab. rewrite (Htrans v w d) by congruence. reflexivity. }
  destruct (proj2 (from_rows_accepts_iff rows)) as ([reps s2i] & Hfr); [tauto|].
  assert (Hres := from_rows_result _ _ _ Hfr). destruct Hres as (_ & _ & Hin & _).
  assert (Hincell : forall k, In k (dkeys sites) -> in_cell rows k).
  { intros k Hk. apply (in_cell_cells _ _ Hrect). rewrite HnX, HnY. destruct k as [x y].
    apply In_cells. destruct (Hcell _ Hk); auto. }
  assert (Hml : exists l2i, mk_label2index s2i sites = Ok l2i).
  { unfold mk_label2index.
    rewrite (mapM_Ok_map _ (fun c => (match dget s2i c with Some l => l | None => ""%string end, c))).
    - cbn [bind]. eauto.
    - intros c Hc. destruct (Hin c (Hincell c Hc)) as [He Hn]. unfold dget_exn.
      rewrite He. destruct (tile rows c); [reflexivity|congruence]. }
  destruct Hml as (l2i & Hml).
  assert (Hsne : sites <> []).
  { intros ->. destruct (Htot (0%Z, 0%Z)) as (k & _ & []). }
  (* writing *)
  set (jst := mkS (Some lX) (Some lY) None None js (map fst js) smap (Some rows) None).
  assert (Hw : write f aux_default false st = Ok jst).
  { unfold write_ipeps, dict_sites. rewrite Hsites. cbn [bind].
    fold (numbered sites). fold nl.
    rewrite (mapM_Ok_map _ (fun nc : nat * (coord * ten R) => let '(nid, (c, site)) := nc in (site_id nid, ser f site))).
    2:{ intros [n [c t]] _. rewrite serialize_ok by exact Hf. reflexivity. }
    cbn [bind]. fold js. fold smap. fold u2i. fold lX lY.
    rewrite (mapM_Ok_map _ (fun y => map (fun x => lab (x, y)) (zrange lX))).
    2:{ intros y _. apply mapM_Ok_map. intros x _. destruct (Htot (x, y)) as (k & Hk & _).
        rewrite Hk. cbn [bind]. apply dget_exn_ok. apply Hlab; exact Hk. }
    reflexivity. }
  (* reading *)
  assert (Hjs : NoDup (map fst js)).
  { unfold js. rewrite map_map.
    rewrite (map_ext _ (fun x : nat * (coord * ten R) => site_id (fst x))) by (intros [n [c t]]; reflexivity).
    rewrite <- (map_map fst site_id). unfold nl. rewrite map_fst_numbered.
    apply NoDup_map_inj; [intros a b _ _; apply site_id_inj|apply seq_NoDup]. }
  destruct (read_loop cd f js nl [] None Hf) as [X' Hloop].
  { intros n c t Hi. split; [|].
    - apply find_site_In; [exact Hjs|]. unfold js. apply in_map_iff. exists (n, (c, t)); split; [reflexivity|exact Hi].
    - unfold nl in Hi. apply In_numbered, nth_error_In in Hi. apply Hons in Hi. exact Hi. }
  { rewrite Hkeys; exact Hnd. }
  { reflexivity. }
  unfold nl in Hloop at 2. rewrite map_snd_numbered in Hloop. cbn [app] in Hloop. fold nl in Hloop. fold smap in Hloop.
  assert (Hinit : exists st', ipeps_init ten_cplx ten_device (Some sites) None (Some (PatRows rows)) (Some lX) (Some lY) = Ok st').
  { unfold ipeps_init.
    assert (Hst : sites_truthy (Some sites) = Some sites) by (destruct sites; [congruence|reflexivity]).
    assert (Hpt : pat_truthy (Some (PatRows rows)) = Some (PatRows rows)) by (destruct rows; [congruence|reflexivity]).
    rewrite Hst, Hunif. cbn [py_assert bind]. unfold init_size. rewrite Hpt.
    destruct rows as [|r0 rs] eqn:E; [congruence|]. rewrite <- E in *.
    replace (pattern_size (PatRows rows)) with (Ok (Z.of_nat (length r0), Z.of_nat (length rows)))
      by (rewrite E; reflexivity). cbn [bind].
    cbn [from_pattern]. rewrite Hfr. cbn [bind]. rewrite Hml. cbn [bind]. eauto. }
  destruct Hinit as (st' & Hinit).
  exists jst, st'. split; [exact Hw|].
  assert (Hread : read cd None aux_default jst = Ok st').
  { unfold read_ipeps, jst. cbn [js_aux js_sites js_map js_lX js_lY js_sizeM js_sizeN js_pattern].
    match goal with |- bind ?m _ = _ => replace m with (@Ok (dict coord (ten R) * option (ten R)) (sites, X'))
      by (symmetry; exact Hloop) end. cbn [bind first_key key]. exact Hinit. }
  split; [exact Hread|].
  destruct (init_pattern _ _ _ _ _ _ _ Hinit Hne) as (reps' & s2i' & l2i' & _ & _ & _ & Hs' & HlX' & HlY' & _).
  split; [exact Hs'|]. split; [rewrite HlX'; exact HnX|]. split; [rewrite HlY'; exact HnY|].
  intros v. destruct (Htot v) as (k & Hk & Hkin).
  destruct (pattern_site _ _ rows sites _ _ st' v Hinit Hne) as (_ & _ & _ & Hsite & _).
  destruct Hsite as (s & t & Hs & Hsin & Hts & _ & _).
  { exists k; split; [exact Hkin|]. rewrite !Htile. f_equal. unfold lab. rewrite Hk, (Hfix k Hkin). reflexivity. }
  rewrite Hs, Hk. f_equal. rewrite !Htile in Hts. injection Hts; intros Hl.
  apply (Hinj s k (lab v)); [|apply Hlab; exact Hk]. rewrite <- Hl. apply Hlab. apply Hfix; exact Hsin. Qed.
End P.
