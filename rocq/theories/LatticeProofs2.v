(** Proofs about the constructor, [site], and the shipped tilings. *)
From Verif Require Import Base BaseLemmas Lattice LatticeSpec LatticeProofs Tilings.
From Coq Require Import ZifyBool.
Open Scope Z_scope.
Open Scope res_scope.

Lemma mod_divide n a b : 0 < n -> (a mod n = b mod n <-> (n | a - b)).
Proof. intros Hn. rewrite <- Z.mod_divide by lia. split.
  - intros He. rewrite Zminus_mod, He, Z.sub_diag. apply Z.mod_0_l; lia.
  - intros He. apply Z.mod_divide in He; [|lia]. destruct He as [k Hk].
    replace a with (b + k * n) by lia. apply Z.mod_add; lia. Qed.

Section Init.
Context {L T DT DV : Type} `{EqDec L} `{EqDec DT} `{EqDec DV}.
Variable dtype_of : T -> DT.
Variable device_of : T -> DV.
Notation init := (ipeps_init (L:=L) dtype_of device_of).
Implicit Types (rows : list (list L)) (s2i : dict coord L) (l2i : dict L coord).


Lemma init_pbc sites lX lY st :
  init sites None None lX lY = Ok st ->
  i_v2s st = pbc (i_lX st) (i_lY st).
Proof. unfold ipeps_init. intros Hi. bind_inv Hi. bind_inv Hi. destruct a0 as [x y].
  cbn in Hi. inv Hi. reflexivity. Qed.

Lemma init_size_pos sites lX lY st :
  init sites None None lX lY = Ok st ->
  (lX = Some (i_lX st) /\ lY = Some (i_lY st)) \/ (0 < i_lX st /\ 0 < i_lY st).
Proof. unfold ipeps_init. intros Hi. bind_inv Hi. bind_inv Hi. destruct a0 as [x y].
  cbn in Hi. inv Hi. cbn [i_lX i_lY].
  unfold init_size in Ha0; cbn [pat_truthy] in Ha0.
  assert (Hinf : forall s : dict coord T,
    (min_x <- zmin_list (map fst (dkeys s)) ;;
      max_x <- zmax_list (map fst (dkeys s)) ;;
      min_y <- zmin_list (map snd (dkeys s)) ;;
      max_y <- zmax_list (map snd (dkeys s)) ;;
      Ok (max_x - min_x + 1, max_y - min_y + 1)) = Ok (x, y) -> 0 < x /\ 0 < y).
  { intros s Hs. bind_inv Hs. bind_inv Hs. bind_inv Hs. bind_inv Hs. inv Hs.
    apply zmin_list_spec in Ha1, Ha3. apply zmax_list_spec in Ha2, Ha4.
    destruct Ha1 as [I1 B1], Ha2 as [I2 B2], Ha3 as [I3 B3], Ha4 as [I4 B4].
    specialize (B1 _ I2). specialize (B3 _ I4). lia. }
  destruct (sites_truthy sites) as [s|]; destruct lX as [lx|]; destruct lY as [ly|];
    try (right; eapply Hinf; eassumption); try discriminate;
    destruct (negb (lx =? 0) && negb (ly =? 0)); try discriminate;
    inversion Ha0; subst; left; auto. Qed.

Lemma default_tiling sites lX lY st :
  init sites None None lX lY = Ok st -> 0 < i_lX st -> 0 < i_lY st ->
  (forall v, exists s, i_v2s st v = Ok s /\
     0 <= fst s < i_lX st /\ 0 <= snd s < i_lY st /\
     (i_lX st | fst v - fst s) /\ (i_lY st | snd v - snd s) /\
     i_v2s st s = Ok s) /\
  (forall v w, i_v2s st v = i_v2s st w <->
     (i_lX st | fst v - fst w) /\ (i_lY st | snd v - snd w)).
Proof. intros Hi HX HY. rewrite (init_pbc _ _ _ _ Hi).
  set (lx := i_lX st) in *. set (ly := i_lY st) in *. split.
  - intros v. exists (fst v mod lx, snd v mod ly). rewrite !pbc_ok by lia. cbn [fst snd].
    repeat split; try (apply Z.mod_pos_bound; lia).
    + apply mod_divide; [lia|]. now rewrite Z.mod_mod by lia.
    + apply mod_divide; [lia|]. now rewrite Z.mod_mod by lia.
    + now rewrite !Z.mod_mod by lia.
  - intros v w. rewrite !pbc_ok by lia. rewrite <- !mod_divide by lia. split.
    + intros He; inversion He; auto.
    + intros [-> ->]; reflexivity. Qed.

(** *** construction from a pattern *)
Lemma init_pattern rows sites lX lY st :
  init (Some sites) None (Some (PatRows rows)) lX lY = Ok st -> rows <> [] ->
  exists reps s2i l2i,
    from_rows rows = Ok (reps, s2i) /\ mk_label2index s2i sites = Ok l2i /\
    sites <> [] /\
    i_sites st = Some sites /\ i_lX st = nXof rows /\ i_lY st = nYof rows /\
    i_v2s st = v2s_pattern l2i s2i (nXof rows) (nYof rows).
Proof. unfold ipeps_init. intros Hi Hne. bind_inv Hi. bind_inv Hi. destruct a0 as [x y].
  destruct rows as [|row0 rest] eqn:Er; [congruence|]. rewrite <- Er in *.
  assert (Hp : pat_truthy (Some (PatRows rows)) = Some (PatRows rows))
    by (rewrite Er; reflexivity). rewrite Hp in Hi.
  bind_inv Hi. destruct a0 as [reps s2i]. cbn [from_pattern] in Ha1.
  unfold init_size in Ha0. rewrite Hp in Ha0. cbn in Ha0. rewrite Er in Ha0.
  inversion Ha0; subst x y. clear Ha0.
  destruct sites as [|kv sites'] eqn:Es; [cbn in Hi; discriminate|]. rewrite <- Es in *.
  assert (Hs : sites_truthy (Some sites) = Some sites) by (rewrite Es; reflexivity).
  rewrite Hs in Hi, Ha. bind_inv Ha. inv Ha. bind_inv Hi. inversion Hi; subst st; clear Hi.
  cbn [i_sites i_lX i_lY i_v2s].
  exists reps, s2i, a. repeat split; auto; try congruence. Qed.

Lemma mk_l2i_spec rows reps s2i sites l2i :
  from_rows rows = Ok (reps, s2i) -> mk_label2index (T:=T) s2i sites = Ok l2i ->
  (forall c, In c (dkeys sites) -> in_cell rows c) /\
  (forall l c, dget l2i l = Some c -> In c (dkeys sites) /\ tile rows c = Some l) /\
  (forall c l, In c (dkeys sites) -> tile rows c = Some l -> exists c', dget l2i l = Some c').
Proof. intros Hf Hl. apply from_rows_result in Hf. destruct Hf as (_ & _ & Hin & Hout).
  unfold mk_label2index in Hl. bind_inv Hl. inv Hl. rename a into kvs.
  apply mapM_ok in Ha.
  assert (Hcell : forall c, In c (dkeys sites) -> in_cell rows c).
  { intros c Hc. destruct (Forall2_In_l _ _ _ _ Ha Hc) as (kv & _ & Hkv). bind_inv Hkv.
    apply dget_exn_ok in Ha0.
    assert (Hdec : in_cell rows c \/ ~ in_cell rows c).
    { destruct c as [x y]. unfold in_cell; cbn [fst snd].
      destruct (nth_error rows (Z.to_nat y)) as [row|] eqn:En.
      - assert (Hd : (0 <= y < Z.of_nat (length rows) /\ 0 <= x < Z.of_nat (length row)) \/
                   ~ (0 <= y < Z.of_nat (length rows) /\ 0 <= x < Z.of_nat (length row))) by lia.
        destruct Hd as [Hd|Hd]; [left; split; [tauto|exists row; tauto]|].
        right. intros (Hy & row' & Hr & Hx). inversion Hr; subst. tauto.
      - right. intros (Hy & row' & Hr & Hx). discriminate. }
    destruct Hdec as [Hd|Hd]; [exact Hd|]. rewrite (Hout _ Hd) in Ha0; discriminate. }
  split; [exact Hcell|]. split.
  - intros l c Hd. apply dget_dict_of_In in Hd.
    destruct (Forall2_In_r _ _ _ _ Ha Hd) as (c0 & Hc0 & Hkv). bind_inv Hkv.
    inversion Hkv; subst. split; [exact Hc0|]. apply dget_exn_ok in Ha0.
    destruct (Hin _ (Hcell _ Hc0)) as [He _]. congruence.
  - intros c l Hc Ht. apply dget_dict_of_key.
    destruct (Forall2_In_l _ _ _ _ Ha Hc) as (kv & Hkv & He). bind_inv He.
    inversion He; subst. apply dget_exn_ok in Ha0.
    destruct (Hin _ (Hcell _ Hc)) as [He' _].
    apply in_map_iff. exists (a, c); split; [cbn; congruence|exact Hkv]. Qed.

Lemma in_cell_pos (rows : list (list L)) c : rectangular rows -> in_cell rows c -> 0 < nXof rows.
Proof. intros Hr Hc. apply (in_cell_cells _ _ Hr) in Hc. destruct c as [x y].
  apply In_cells in Hc. lia. Qed.

Lemma v2s_pattern_lookup rows reps s2i l2i v :
  from_rows rows = Ok (reps, s2i) -> 0 < nXof rows ->
  exists l, tile rows v = Some l /\
    v2s_pattern l2i s2i (nXof rows) (nYof rows) v = dget_exn l2i l.
Proof. intros Hf HX.
  destruct (proj1 (from_rows_accepts_iff rows)) as (Hne & Hrect & Hcons); [eauto|].
  assert (HY := nX_pos_rows _ HX).
  apply from_rows_result in Hf. destruct Hf as (_ & _ & Hin & _).
  assert (Hc : in_cell rows (fst v mod nXof rows, snd v mod nYof rows)).
  { apply (in_cell_cells _ _ Hrect). apply In_cells; split; apply Z.mod_pos_bound; lia. }
  destruct (Hin _ Hc) as [He Hn]. rewrite tile_mod in He, Hn by assumption.
  destruct v as [vx vy]. cbn [fst snd] in *.
  destruct (tile rows (vx, vy)) as [l|]; [|congruence].
  exists l; split; [reflexivity|]. unfold v2s_pattern. rewrite pbc_ok by lia. cbn [bind fst snd].
  apply dget_exn_ok in He. rewrite He. reflexivity. Qed.

Lemma pattern_site rows sites lX lY st v :
  init (Some sites) None (Some (PatRows rows)) lX lY = Ok st -> rows <> [] ->
  i_lY st = Z.of_nat (length rows) /\
  (forall row, In row rows -> i_lX st = Z.of_nat (length row)) /\
  (forall c, In c (dkeys sites) -> in_cell rows c) /\
  ((exists c, In c (dkeys sites) /\ tile rows c = tile rows v) ->
     exists s t, i_v2s st v = Ok s /\ In s (dkeys sites) /\ tile rows s = tile rows v /\
                 dget sites s = Some t /\ ipeps_site st v = Ok t) /\
  ((forall c, In c (dkeys sites) -> tile rows c <> tile rows v) ->
     ipeps_site st v = Err KeyError).
Proof. intros Hi Hne.
  destruct (init_pattern _ _ _ _ _ Hi Hne) as (reps & s2i & l2i & Hf & Hl & Hsne & Hs & HlX & HlY & Hv).
  destruct (proj1 (from_rows_accepts_iff rows)) as (_ & Hrect & Hcons); [eauto|].
  destruct (mk_l2i_spec _ _ _ _ _ Hf Hl) as (Hcell & Hl2i & Hhas).
  assert (HX : 0 < nXof rows).
  { destruct sites as [|[c t] s]; [congruence|].
    apply (in_cell_pos rows c Hrect). apply Hcell. left; reflexivity. }
  destruct (v2s_pattern_lookup rows reps s2i l2i v Hf HX) as (l & Htl & Hlook).
  split; [exact HlY|]. split; [|split; [exact Hcell|split]].
  - intros row Hr. rewrite HlX. symmetry; now apply rect_len.
  - intros (c & Hc & Ht). destruct (Hhas c l Hc) as (s & Hd); [congruence|].
    destruct (Hl2i _ _ Hd) as [Hsk Hst].
    assert (Hsome := proj1 (dget_Some_key sites s) Hsk). destruct Hsome as (t & Hgt).
    exists s, t. rewrite Hv, Hlook. unfold dget_exn at 1. rewrite Hd.
    repeat split; auto; [congruence|].
    unfold ipeps_site. rewrite Hs, Hv, Hlook. unfold dget_exn at 1. rewrite Hd. cbn.
    now apply dget_exn_ok.
  - intros Hno. unfold ipeps_site. rewrite Hs, Hv, Hlook. unfold dget_exn at 1.
    destruct (dget l2i l) as [c|] eqn:E; [|reflexivity].
    exfalso. destruct (Hl2i _ _ E) as [Hc Ht]. apply (Hno c Hc). congruence. Qed.

(** equal sites exactly when equal labels *)
Lemma pattern_site_label rows sites lX lY st v w s :
  init (Some sites) None (Some (PatRows rows)) lX lY = Ok st -> rows <> [] ->
  i_v2s st v = Ok s -> (i_v2s st w = Ok s <-> tile rows v = tile rows w).
Proof. intros Hi Hne.
  destruct (init_pattern _ _ _ _ _ Hi Hne) as (reps & s2i & l2i & Hf & Hl & Hsne & Hs & HlX & HlY & Hv).
  destruct (proj1 (from_rows_accepts_iff rows)) as (_ & Hrect & Hcons); [eauto|].
  destruct (mk_l2i_spec _ _ _ _ _ Hf Hl) as (Hcell & Hl2i & Hhas).
  assert (HX : 0 < nXof rows).
  { destruct sites as [|[c t] s']; [congruence|].
    apply (in_cell_pos rows c Hrect). apply Hcell. left; reflexivity. }
  destruct (v2s_pattern_lookup rows reps s2i l2i v Hf HX) as (l & Htl & Hlook).
  destruct (v2s_pattern_lookup rows reps s2i l2i w Hf HX) as (l' & Htl' & Hlook').
  rewrite Hv, Hlook, Hlook'. intros Hvs. apply dget_exn_ok in Hvs.
  rewrite dget_exn_ok. rewrite Htl, Htl'. split.
  - intros Hw. destruct (Hl2i _ _ Hvs), (Hl2i _ _ Hw). congruence.
  - intros He; inversion He; subst; exact Hvs. Qed.

Lemma pattern_translation rows sites lX lY st v w s d :
  init (Some sites) None (Some (PatRows rows)) lX lY = Ok st -> rows <> [] ->
  i_v2s st v = Ok s -> i_v2s st w = Ok s ->
  i_v2s st (cadd v d) = i_v2s st (cadd w d).
Proof. intros Hi Hne Hvs Hws.
  assert (Ht := proj1 (pattern_site_label _ _ _ _ _ _ w _ Hi Hne Hvs) Hws).
  destruct (init_pattern _ _ _ _ _ Hi Hne) as (reps & s2i & l2i & Hf & Hl & Hsne & Hs & HlX & HlY & Hv).
  destruct (proj1 (from_rows_accepts_iff rows)) as (_ & Hrect & Hcons); [eauto|].
  destruct (mk_l2i_spec _ _ _ _ _ Hf Hl) as (Hcell & Hl2i & Hhas).
  assert (HX : 0 < nXof rows).
  { destruct sites as [|[c t] s']; [congruence|].
    apply (in_cell_pos rows c Hrect). apply Hcell. left; reflexivity. }
  assert (Ht2 := lc_shift rows v w d Hcons Ht).
  destruct (v2s_pattern_lookup rows reps s2i l2i (cadd v d) Hf HX) as (l & Htl & Hlook).
  destruct (v2s_pattern_lookup rows reps s2i l2i (cadd w d) Hf HX) as (l' & Htl' & Hlook').
  rewrite Hv, Hlook, Hlook'. congruence. Qed.

Lemma nodup_incl_perm {A} (l l' : list A) :
  NoDup l -> incl l l' -> length l = length l' -> Permutation l l'.
Proof. intros Hn Hi Hl. apply NoDup_Permutation_bis; auto. lia. Qed.

Lemma pattern_shift_perm rows reps s2i sites lX lY st d :
  init (Some sites) None (Some (PatRows rows)) lX lY = Ok st -> rows <> [] ->
  from_pattern (PatRows rows) = Ok (reps, s2i) -> Permutation (dkeys sites) reps ->
  Permutation (map (fun s => i_v2s st (cadd s d)) (dkeys sites)) (map Ok (dkeys sites)).
Proof. intros Hi Hne Hfp Hperm. cbn [from_pattern] in Hfp.
  destruct (proj1 (from_rows_accepts_iff rows)) as (_ & Hrect & Hcons); [eauto|].
  assert (Hres := from_rows_result _ _ _ Hfp). destruct Hres as (Hsort & Hreps & _).
  destruct (init_pattern _ _ _ _ _ Hi Hne) as (reps' & s2i' & l2i & Hf & Hl & Hsne & Hs & HlX & HlY & Hv).
  assert (reps' = reps /\ s2i' = s2i) as [-> ->] by (split; congruence).
  destruct (mk_l2i_spec _ _ _ _ _ Hf Hl) as (Hcell & Hl2i & Hhas).
  assert (HX : 0 < nXof rows).
  { destruct sites as [|[c t] s']; [congruence|].
    apply (in_cell_pos rows c Hrect). apply Hcell. left; reflexivity. }
  (* every label has a representative among the keys *)
  assert (Hrep : forall v, exists c, In c (dkeys sites) /\ tile rows c = tile rows v).
  { intros v. destruct (tile_some rows v Hrect HX) as (l & Htl).
    assert (HY := nX_pos_rows _ HX).
    pose (cs := filter (fun c => match tile rows c with Some l' => eqb l' l | None => false end)
                       (cells (nXof rows) (nYof rows))).
    assert (Hcs : cs <> []).
    { intros Hnil. assert (Hc : In (fst v mod nXof rows, snd v mod nYof rows) cs).
      { apply filter_In. split.
        - apply In_cells; split; apply Z.mod_pos_bound; lia.
        - rewrite tile_mod by assumption. destruct v as [vx vy]; cbn [fst snd]. rewrite Htl.
          now apply eqb_true. }
      rewrite Hnil in Hc; destruct Hc. }
    destruct (cmin_ok cs Hcs) as (m & Hm). apply cmin_spec in Hm. destruct Hm as [Hmi Hmin].
    apply filter_In in Hmi. destruct Hmi as [Hmc Hml].
    destruct (tile rows m) as [l'|] eqn:Em; [|discriminate]. apply (proj1 (eqb_true _ _)) in Hml; subst l'.
    exists m; split; [|congruence]. eapply Permutation_in; [apply Permutation_sym; exact Hperm|].
    apply Hreps. split; [now apply (in_cell_cells _ _ Hrect)|].
    intros c' Hc' He. apply lex_le_cleb. apply Hmin. apply filter_In. split.
    - now apply (in_cell_cells _ _ Hrect).
    - rewrite He, Em. now apply eqb_true. }
  assert (Huniq : forall c c', In c (dkeys sites) -> In c' (dkeys sites) ->
     tile rows c = tile rows c' -> c = c').
  { intros c c' Hc Hc' He.
    apply (Permutation_in _ Hperm) in Hc, Hc'. apply Hreps in Hc, Hc'.
    destruct Hc as [Hc1 Hc2], Hc' as [Hc1' Hc2'].
    apply cleb_antisym; apply lex_le_cleb; [apply Hc2|apply Hc2']; auto. }
  assert (Hnd : NoDup (dkeys sites)).
  { eapply Permutation_NoDup; [apply Permutation_sym; exact Hperm|].
    clear -Hsort. induction Hsort as [|a l Hs IH Hf]; constructor; auto.
    intros Hi. rewrite Forall_forall in Hf. specialize (Hf _ Hi). unfold lex_lt in Hf. lia. }
  assert (Hval : forall v, exists s, i_v2s st v = Ok s /\ In s (dkeys sites) /\ tile rows s = tile rows v).
  { intros v. destruct (pattern_site rows sites lX lY st v Hi Hne) as (_ & _ & _ & Hex & _).
    destruct (Hex (Hrep v)) as (s & t & H1' & H2' & H3' & _). eauto. }
  apply nodup_incl_perm.
  - (* injective *)
    apply NoDup_map_inj; [|exact Hnd].
    intros c c' Hc Hc' He. destruct (Hval (cadd c d)) as (s & Hs1 & _ & Ht1).
    destruct (Hval (cadd c' d)) as (s' & Hs2 & _ & Ht2).
    assert (s = s') by congruence; subst s'.
    assert (Htt : tile rows (cadd c d) = tile rows (cadd c' d)) by congruence.
    apply (lc_shift _ _ _ (cneg d) Hcons) in Htt.
    apply Huniq; auto.
    replace (cadd (cadd c d) (cneg d)) with c in Htt
      by (destruct c, d; unfold cadd, cneg; cbn; f_equal; lia).
    replace (cadd (cadd c' d) (cneg d)) with c' in Htt
      by (destruct c', d; unfold cadd, cneg; cbn; f_equal; lia). exact Htt.
  - intros r Hr. apply in_map_iff in Hr. destruct Hr as (c & <- & Hc).
    destruct (Hval (cadd c d)) as (s & -> & Hin & _). now apply in_map.
  - now rewrite !map_length. Qed.

(** dictionaries *)
Lemma init_dict_fails sites v2s d lX lY :
  d <> [] -> (forall s, sites_truthy sites = Some s -> uniform dtype_of device_of s = true) ->
  init sites v2s (Some (PatDict d)) lX lY = Err KeyError.
Proof. intros Hd Hu. unfold ipeps_init.
  assert (Hp : init_size sites (Some (PatDict d)) lX lY = Err KeyError)
    by (unfold init_size; destruct d; [congruence|reflexivity]).
  destruct (sites_truthy sites) as [s|] eqn:Es.
  - rewrite (Hu s eq_refl). cbn [py_assert bind]. rewrite Hp. reflexivity.
  - cbn [bind]. rewrite Hp. reflexivity. Qed.

Lemma init_explicit_wins sites f p lX lY st :
  init sites (Some f) p lX lY = Ok st -> i_v2s st = f.
Proof. unfold ipeps_init. intros Hi. bind_inv Hi. bind_inv Hi. destruct a0 as [x y].
  inv Hi. reflexivity. Qed.
End Init.

Lemma from_dict_spec {L} `{EqDec L} (d : dict coord L) rows :
  rows_of_dict d = Ok rows ->
  from_pattern (PatDict d) = from_pattern (PatRows rows) /\
  rows <> [] /\
  exists ncol : Z,
  (forall row, In row rows -> Z.of_nat (length row) = ncol) /\
  (forall r c, In (r, c) (dkeys d) <-> 0 <= r < Z.of_nat (length rows) /\ 0 <= c < ncol) /\
  (forall r c, 0 <= r < Z.of_nat (length rows) -> 0 <= c < ncol ->
     tile rows (c, r) = dget d (r, c)).
Proof. intros Hd. split; [unfold from_pattern; rewrite Hd; reflexivity|].
  destruct (rows_of_dict_spec d rows Hd) as (Hne & Hr & Hk & Ht). split; [exact Hne|].
  exists (nXof rows). split; [intros row Hi; now apply rect_len|split; assumption]. Qed.

(** ** shipped tilings *)
Lemma even_abs y : Z.abs y mod 2 = y mod 2.
Proof. destruct (Z.abs_spec y) as [[_ ->]|[_ ->]]; [reflexivity|].
  Z.div_mod_to_equations; lia. Qed.

Lemma bipartite_eq c : tiling_bipartite c = ((fst c + snd c) mod 2, 0).
Proof. unfold tiling_bipartite. f_equal. rewrite Z.mod_add by lia.
  rewrite Zplus_mod, Z.mod_mod, even_abs, <- Zplus_mod by lia. reflexivity. Qed.

Ltac tiling_lia :=
  unfold tiling_1site, tiling_2site, tiling_4site, tiling_8site, tiling_3site, tiling_trgl_4site, cadd in *;
  cbn [fst snd] in *; rewrite ?Z.mod_add in * by lia.

Lemma pair_eq (a a' b b' : Z) : @eq coord (a, b) (a', b') <-> a = a' /\ b = b'.
Proof. split; [intros He; inversion He; auto|intros [-> ->]; reflexivity]. Qed.

Lemma tc_1site : translation_consistent tiling_1site.
Proof. intros v w d _; reflexivity. Qed.
Lemma tc_bipartite : translation_consistent tiling_bipartite.
Proof. intros [vx vy] [wx wy] [dx dy]. rewrite !bipartite_eq. unfold cadd; cbn [fst snd].
  rewrite !pair_eq. intros [He _]; split; [|reflexivity]. Z.div_mod_to_equations; lia. Qed.
Lemma tc_2site : translation_consistent tiling_2site.
Proof. intros [vx vy] [wx wy] [dx dy]. tiling_lia. rewrite !pair_eq.
  intros [He _]; split; Z.div_mod_to_equations; lia. Qed.
Lemma tc_4site : translation_consistent tiling_4site.
Proof. intros [vx vy] [wx wy] [dx dy]. tiling_lia. rewrite !pair_eq.
  intros [He He']; split; [clear He'|clear He]; Z.div_mod_to_equations; lia. Qed.
Lemma tc_3site : translation_consistent tiling_3site.
Proof. intros [vx vy] [wx wy] [dx dy]. tiling_lia. rewrite !pair_eq.
  intros [He _]; split; [|reflexivity]. Z.div_mod_to_equations; lia. Qed.
Lemma tc_8site : translation_consistent tiling_8site.
Proof. intros [vx vy] [wx wy] [dx dy]. tiling_lia. rewrite !pair_eq.
  intros [He He']; split; [|clear He]; Z.div_mod_to_equations; lia. Qed.
Lemma tc_trgl_4site : translation_consistent tiling_trgl_4site.
Proof. intros [vx vy] [wx wy] [dx dy]. tiling_lia. rewrite !pair_eq.
  intros [He He']; split; [clear He'|]; Z.div_mod_to_equations; lia. Qed.

Lemma rect_sites_In nx ny x y : In (x, y) (rect_sites nx ny) <-> 0 <= x < nx /\ 0 <= y < ny.
Proof. exact (In_cells nx ny x y). Qed.

Lemma shipped_ok : forall f sites px py, In (f, sites, px, py) shipped_tilings ->
  translation_consistent f /\
  (forall v, In (f v) sites) /\ (forall s, In s sites -> f s = s) /\
  0 < px /\ 0 < py /\
  (forall v, f (cadd v (px, 0)) = f v /\ f (cadd v (0, py)) = f v).
Proof. intros f sites px py Hin.
  assert (Hgen : forall (g : coord -> coord) nx ny qx qy,
    translation_consistent g ->
    (forall x y, 0 <= fst (g (x, y)) < nx /\ 0 <= snd (g (x, y)) < ny) ->
    (forall x y, 0 <= x < nx -> 0 <= y < ny -> g (x, y) = (x, y)) ->
    0 < qx -> 0 < qy -> (forall x y, g (x + qx, y) = g (x, y)) -> (forall x y, g (x, y + qy) = g (x, y)) ->
    translation_consistent g /\
    (forall v, In (g v) (rect_sites nx ny)) /\ (forall s, In s (rect_sites nx ny) -> g s = s) /\
    0 < qx /\ 0 < qy /\
    (forall v, g (cadd v (qx, 0)) = g v /\ g (cadd v (0, qy)) = g v)).
  { intros g nx ny qx qy Htc Hr Hfix Hqx Hqy Hpx Hpy. repeat split; auto.
    - intros [x y]. specialize (Hr x y). destruct (g (x, y)) as [a b]. now apply rect_sites_In.
    - intros [x y] Hi. apply rect_sites_In in Hi. now apply Hfix.
    - destruct v as [x y]. unfold cadd; cbn [fst snd]. rewrite Z.add_0_r. apply Hpx.
    - destruct v as [x y]. unfold cadd; cbn [fst snd]. rewrite Z.add_0_r. apply Hpy. }
  unfold shipped_tilings in Hin. cbn [In] in Hin.
  destruct Hin as [He|[He|[He|[He|[He|[He|[He|[]]]]]]]]; inversion He; subst; clear He;
    apply Hgen.
  - exact tc_1site.
  - intros x y. tiling_lia. Z.div_mod_to_equations; lia.
  - intros x y Hx Hy. tiling_lia. f_equal; Z.div_mod_to_equations; lia.
  - lia.
  - lia.
  - intros x y. tiling_lia. f_equal; Z.div_mod_to_equations; lia.
  - intros x y. tiling_lia. f_equal; Z.div_mod_to_equations; lia.
  - exact tc_bipartite.
  - intros x y. rewrite !bipartite_eq; cbn [fst snd]. Z.div_mod_to_equations; lia.
  - intros x y Hx Hy. rewrite !bipartite_eq; cbn [fst snd]. f_equal; Z.div_mod_to_equations; lia.
  - lia.
  - lia.
  - intros x y. rewrite !bipartite_eq; cbn [fst snd]. f_equal; Z.div_mod_to_equations; lia.
  - intros x y. rewrite !bipartite_eq; cbn [fst snd]. f_equal; Z.div_mod_to_equations; lia.
  - exact tc_2site.
  - intros x y. tiling_lia. Z.div_mod_to_equations; lia.
  - intros x y Hx Hy. tiling_lia. f_equal; Z.div_mod_to_equations; lia.
  - lia.
  - lia.
  - intros x y. tiling_lia. f_equal; Z.div_mod_to_equations; lia.
  - intros x y. tiling_lia. f_equal; Z.div_mod_to_equations; lia.
  - exact tc_4site.
  - intros x y. tiling_lia. Z.div_mod_to_equations; lia.
  - intros x y Hx Hy. tiling_lia. f_equal; Z.div_mod_to_equations; lia.
  - lia.
  - lia.
  - intros x y. tiling_lia. f_equal; Z.div_mod_to_equations; lia.
  - intros x y. tiling_lia. f_equal; Z.div_mod_to_equations; lia.
  - exact tc_8site.
  - intros x y. tiling_lia. Z.div_mod_to_equations; lia.
  - intros x y Hx Hy. tiling_lia. f_equal; Z.div_mod_to_equations; lia.
  - lia.
  - lia.
  - intros x y. tiling_lia. f_equal; Z.div_mod_to_equations; lia.
  - intros x y. tiling_lia. f_equal; Z.div_mod_to_equations; lia.
  - exact tc_3site.
  - intros x y. tiling_lia. Z.div_mod_to_equations; lia.
  - intros x y Hx Hy. tiling_lia. f_equal; Z.div_mod_to_equations; lia.
  - lia.
  - lia.
  - intros x y. tiling_lia. f_equal; Z.div_mod_to_equations; lia.
  - intros x y. tiling_lia. f_equal; Z.div_mod_to_equations; lia.
  - exact tc_trgl_4site.
  - intros x y. tiling_lia. Z.div_mod_to_equations; lia.
  - intros x y Hx Hy. tiling_lia. f_equal; Z.div_mod_to_equations; lia.
  - lia.
  - lia.
  - intros x y. tiling_lia. f_equal; Z.div_mod_to_equations; lia.
  - intros x y. tiling_lia. f_equal; Z.div_mod_to_equations; lia. Qed.

Lemma bipartite_sublattices v : tiling_bipartite v = (0, 0) <-> Z.even (fst v + snd v) = true.
Proof. rewrite bipartite_eq, pair_eq, Zeven_mod, <- Zeq_is_eq_bool. tauto. Qed.
