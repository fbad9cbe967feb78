(** Which constructed states are regular; index order in files. *)
From Verif Require Import Base BaseLemmas Text TextLemmas Tensor TensorLemmas TensorIO TensorIOProofs
  Lattice LatticeSpec LatticeProofs LatticeProofs2 StateIO StateIOSpec StateIOProofs.
Open Scope Z_scope.
Open Scope list_scope.
Open Scope res_scope.

Section Reg.
Context {L T DT DV : Type} `{EqDec L} `{EqDec DT} `{EqDec DV}.
Variable dtype_of : T -> DT.
Variable device_of : T -> DV.
Notation init := (ipeps_init (L:=L) dtype_of device_of).

Lemma init_sites sites v2s p lX lY st s : sites_truthy sites = Some s ->
  init sites v2s p lX lY = Ok st -> i_sites st = Some s /\ uniform dtype_of device_of s = true.
Proof. intros Hs Hi. unfold ipeps_init in Hi. rewrite Hs in Hi. bind_inv Hi. bind_inv Ha.
  unfold py_assert in Ha0. destruct (uniform dtype_of device_of s) eqn:E; [|discriminate]. inv Ha.
  bind_inv Hi. destruct a as [x y]. split; [|reflexivity]. destruct v2s as [f|]; [inv Hi; reflexivity|].
  destruct (pat_truthy p) as [p'|]; [|inv Hi; reflexivity].
  bind_inv Hi. destruct a as [reps s2i]. bind_inv Hi. inv Hi. reflexivity. Qed.

(** default tiling with all sites of the cell present *)
Lemma regular_pbc sites lX lY st : sites <> [] -> NoDup (dkeys sites) ->
  init (Some sites) None None lX lY = Ok st -> 0 < i_lX st -> 0 < i_lY st ->
  (forall k, In k (dkeys sites) <-> 0 <= fst k < i_lX st /\ 0 <= snd k < i_lY st) ->
  regular st sites.
Proof. intros Hne Hn Hi HX HY Hk.
  assert (Hs : i_sites st = Some sites).
  { eapply init_sites; [|exact Hi]. destruct sites; [congruence|reflexivity]. }
  assert (Hv := init_pbc _ _ _ _ _ _ Hi).
  assert (Hok : forall v, i_v2s st v = Ok (fst v mod i_lX st, snd v mod i_lY st)).
  { intros v. rewrite Hv. apply pbc_ok; lia. }
  constructor; [exact Hs|exact Hn|auto|..].
  - intros v. eexists; split; [apply Hok|]. apply Hk; cbn [fst snd]. split; apply Z.mod_pos_bound; lia.
  - intros k Hin. apply Hk in Hin. rewrite Hok. destruct k as [x y]; cbn [fst snd] in *.
    rewrite !Z.mod_small by lia. reflexivity.
  - intros k Hin; apply Hk; exact Hin.
  - intros v. rewrite !Hok. unfold cadd; cbn [fst snd]. rewrite !Z.add_0_r. split; f_equal; f_equal.
    + rewrite <- (Z.mul_1_l (i_lX st)) at 1. apply Z.mod_add; lia.
    + rewrite <- (Z.mul_1_l (i_lY st)) at 1. apply Z.mod_add; lia.
  - intros v w d He. rewrite !Hok in He |- *. injection He; intros H1' H2'.
    unfold cadd; cbn [fst snd]. f_equal; f_equal.
    + rewrite (Zplus_mod (fst v)), (Zplus_mod (fst w)). congruence.
    + rewrite (Zplus_mod (snd v)), (Zplus_mod (snd w)). congruence. Qed.

(** pattern with exactly one stored site per label *)
Lemma regular_pattern rows sites lX lY st : NoDup (dkeys sites) ->
  init (Some sites) None (Some (PatRows rows)) lX lY = Ok st -> rows <> [] ->
  (forall v, exists c, In c (dkeys sites) /\ tile rows c = tile rows v) ->
  (forall c c', In c (dkeys sites) -> In c' (dkeys sites) -> tile rows c = tile rows c' -> c = c') ->
  regular st sites.
Proof. intros Hn Hi Hne Hcov Huniq.
  destruct (init_pattern _ _ _ _ _ _ _ Hi Hne) as (reps & s2i & l2i & Hf & Hl & Hsne & Hs & HlX & HlY & Hv).
  destruct (proj1 (from_rows_accepts_iff rows)) as (_ & Hrect & Hcons); [eauto|].
  assert (Hcell : forall c, In c (dkeys sites) -> in_cell rows c).
  { destruct (pattern_site _ _ _ _ _ _ _ (0, 0) Hi Hne) as (_ & _ & Hc & _). exact Hc. }
  assert (HX : 0 < nXof rows).
  { destruct (Hcov (0, 0)) as (c & Hc & _). apply (in_cell_pos rows c Hrect). apply Hcell; exact Hc. }
  assert (HY := nX_pos_rows _ HX).
  assert (Hres : forall v, exists s, i_v2s st v = Ok s /\ In s (dkeys sites) /\ tile rows s = tile rows v).
  { intros v. destruct (pattern_site _ _ _ _ _ _ _ v Hi Hne) as (_ & _ & _ & Hsite & _).
    destruct (Hsite (Hcov v)) as (s & t & Hsv & Hin & Ht & _). eauto. }
  assert (Heq : forall v w, tile rows v = tile rows w -> i_v2s st v = i_v2s st w).
  { intros v w He. destruct (Hres v) as (s & Hsv & _ & _). rewrite Hsv. symmetry.
    apply (pattern_site_label _ _ _ _ _ _ _ v w s Hi Hne Hsv). exact He. }
  constructor; [exact Hs|exact Hn|rewrite HlX, HlY; auto|..].
  - intros v. destruct (Hres v) as (s & Hsv & Hin & _). eauto.
  - intros k Hk. destruct (Hres k) as (s & Hsv & Hin & Ht). rewrite Hsv. f_equal. apply Huniq; assumption.
  - intros k Hk. apply Hcell in Hk. apply (in_cell_cells _ _ Hrect) in Hk. destruct k as [x y].
    apply In_cells in Hk. rewrite HlX, HlY. exact Hk.
  - intros v. rewrite HlX, HlY. split; apply Heq; apply tile_cong; try assumption; unfold cadd; cbn [fst snd];
      rewrite ?Z.add_0_r; try reflexivity.
    + rewrite <- (Z.mul_1_l (nXof rows)) at 1. apply Z.mod_add; lia.
    + rewrite <- (Z.mul_1_l (nYof rows)) at 1. apply Z.mod_add; lia.
  - intros v w d He. destruct (Hres v) as (s & Hsv & _ & _). rewrite Hsv in He. symmetry in He.
    apply Heq. apply lc_shift; [exact Hcons|].
    apply (pattern_site_label _ _ _ _ _ _ _ v w s Hi Hne Hsv); exact He. Qed.
End Reg.

Section Aux.
Context {R : Type}.
Variables (zero : R) (add : R -> R -> R).
Variable parse : string -> option R.
Variable parsec : string -> option (R * R).

(** element of a tensor as a complex number *)
Definition ten_get (t : ten R) (ix : list nat) : option (R * R) :=
  match t with TReal t => option_map (fun x => (x, zero)) (tget t ix) | TCplx t => tget t ix end.

Lemma ten_permute_spec t p t' : ten_wf t -> ten_permute zero t p = Ok t' ->
  Permutation p (seq 0 (length (ten_dims t))) /\ ten_wf t' /\
  ten_dims t' = map (fun k => nth k (ten_dims t) 0%nat) p /\
  forall ix jx, in_range (ten_dims t) ix -> length jx = length ix ->
    (forall k, (k < length p)%nat -> nth k jx 0%nat = nth (nth k p 0%nat) ix 0%nat) ->
    ten_get t' jx = ten_get t ix.
Proof. destruct t as [t|t]; unfold ten_permute, ten_wf, ten_dims; intros Hw Hp; bind_inv Hp; inv Hp;
    destruct (tpermute_spec _ _ _ _ Hw Ha) as (H1 & H2 & H3 & H4);
    (split; [exact H1|split; [exact H2|split; [exact H3|]]]); intros ix jx Hr Hl Hk;
    unfold ten_get; rewrite (H4 ix jx Hr Hl Hk); reflexivity. Qed.

Lemma promote_get cd (t : ten R) ix : ten_get (promote zero cd t) ix = ten_get t ix.
Proof. destruct t as [t|t]; [|reflexivity]. unfold promote. destruct cd; [|reflexivity].
  unfold ten_get. now rewrite tget_tmap. Qed.

Lemma promote_dims cd (t : ten R) : ten_dims (promote zero cd t) = ten_dims t.
Proof. destruct t as [t|t]; [|reflexivity]. unfold promote. destruct cd; reflexivity. Qed.

(** every loaded tensor is the stored one with its indices permuted *)
Lemma read_loop_inv cd asq js m d X d' X' :
  foldM (read_step zero add parse parsec cd asq js) m (d, X) = Ok (d', X') ->
  (forall jt, j_format jt <> None -> j_format jt = Some "1D"%string \/ ~ In jt (map snd js)) ->
  forall c t, dget d' c = Some t -> dget d c = Some t \/
    exists id jt x y, In (id, c) m /\ find_site js id = Some jt /\
      (read_1d parse parsec jt = Ok x \/ read_legacy zero add parse jt = Ok x) /\
      ten_permute zero x (0%nat :: asq) = Ok y /\ t = promote zero cd y.
Proof. intros Hl Hfmt. revert d X Hl. induction m as [|[id c0] m IH]; intros d X Hl c t Ht.
  - cbn in Hl. inv Hl. left; exact Ht.
  - cbn [foldM] in Hl. bind_inv Hl. destruct a as [d1 X1].
    destruct (IH _ _ Hl c t Ht) as [Hd|Hex].
    + unfold read_step in Ha. cbn [fst snd] in Ha. destruct (find_site js id) as [jt|] eqn:Efs; [|discriminate].
      bind_inv Ha. bind_inv Ha. inv Ha. rewrite dget_dset in Hd. destruct (eq_dec c c0) as [->|Hn]; [|left; exact Hd].
      right. injection Hd; intros <-. exists id, jt, a, a0. split; [left; reflexivity|]. split; [exact Efs|].
      split; [|split; [exact Ha1|reflexivity]].
      unfold read_tensor in Ha0. destruct (j_format jt) as [f|] eqn:Ef; [|right; exact Ha0].
      destruct (Hfmt jt) as [He|Hni]; [congruence| |].
      * rewrite Ef in He. inv He. replace (eqb "1D"%string "1D"%string) with true in Ha0 by reflexivity.
        left; exact Ha0.
      * exfalso; apply Hni. clear - Efs. unfold find_site in Efs.
        assert (Hg : forall l acc, fold_left (fun (acc : option jtensor) s => if eqb (fst s) id then Some (snd s) else acc) l acc = Some jt ->
                  acc = Some jt \/ In jt (map snd l)).
        { induction l as [|[i j] l IHl]; intros acc He; [left; exact He|]. cbn [fold_left fst snd] in He.
          destruct (IHl _ He) as [Hx|Hx]; [|right; right; exact Hx].
          destruct (eqb i id); [right; left; cbn; congruence|left; exact Hx]. }
        destruct (Hg _ _ Efs) as [Hx|Hx]; [discriminate|exact Hx].
    + right. destruct Hex as (id' & jt & x & y & Hin & Hrest). exists id', jt, x, y.
      split; [right; exact Hin|exact Hrest]. Qed.

(** [s]: position in the file of the up, left, down, right index *)
Theorem read_index_order cd v2s arg s js st :
  read_ipeps zero add parse parsec cd v2s arg js = Ok st -> js_aux js = Some s \/ js_aux js = None /\ arg = s ->
  (forall jt, j_format jt <> None -> j_format jt = Some "1D"%string \/ ~ In jt (map snd (js_sites js))) ->
  forall sites c t, i_sites st = Some sites -> dget sites c = Some t ->
  exists id jt x, In (id, c) (js_map js) /\ find_site (js_sites js) id = Some jt /\
    (read_1d parse parsec jt = Ok x \/ read_legacy zero add parse jt = Ok x) /\
    (ten_wf x -> Permutation s (seq 0 (length s)) /\ length (ten_dims x) = S (length s) /\
     forall ph ix jx, in_range (ten_dims x) (ph :: ix) -> length jx = length ix ->
       (forall k, (k < length s)%nat -> nth k jx 0%nat = nth (nth k s 0%nat) ix 0%nat) ->
       ten_get t (ph :: jx) = ten_get x (ph :: ix)).
Proof. intros Hr Haux Hfmt sites c t Hsites Hget.
  unfold read_ipeps in Hr.
  replace (match js_aux js with Some s0 => map S s0 | None => map S arg end) with (map S s) in Hr by (destruct Haux as [->|[-> ->]]; reflexivity).
  bind_inv Hr. destruct a as [d X]. bind_inv Hr. bind_inv Hr.
  assert (Hd : i_sites st = Some d).
  { destruct (match v2s with Some f => match js_pattern js with _ => (Some f, None) end
              | None => match js_pattern js with Some p => (None, Some (PatRows p)) | None => (Some (pbc a a0), None) end end)
      as [v2s' pat] eqn:E.
    assert (Hi : ipeps_init ten_cplx ten_device (Some d) v2s' pat (Some a) (Some a0) = Ok st).
    { destruct v2s as [f|]; [|destruct (js_pattern js)]; inv E; exact Hr. }
    destruct (sites_truthy (Some d)) as [s'|] eqn:Est.
    - destruct (init_sites _ _ _ _ _ _ _ _ _ Est Hi) as [Hx _].
      rewrite Hx. destruct d; [discriminate|]. cbn in Est. congruence.
    - (* empty dictionary: no sites attribute *)
      exfalso. destruct d as [|kv d]; [|discriminate].
      unfold ipeps_init in Hi. cbn [sites_truthy bind] in Hi. bind_inv Hi. destruct a1 as [x y].
      destruct v2s' as [f|]; [inv Hi; discriminate|].
      destruct (pat_truthy pat) as [p'|]; [|inv Hi; discriminate].
      bind_inv Hi. destruct a1 as [reps s2i]. discriminate. }
  rewrite Hsites in Hd. inv Hd.
  destruct (read_loop_inv _ _ _ _ _ _ _ _ Ha Hfmt c t Hget) as [Hx|(id & jt & x & y & Hin & Hfs & Hrd & Hp & ->)]; [discriminate|].
  exists id, jt, x. split; [exact Hin|]. split; [exact Hfs|]. split; [exact Hrd|]. intros Hw.
  destruct (ten_permute_spec _ _ _ Hw Hp) as (Hperm & _ & _ & Hg).
  assert (Hlen : length (ten_dims x) = S (length s)).
  { apply Permutation_length in Hperm. rewrite seq_length in Hperm. cbn [length] in Hperm. rewrite map_length in Hperm. lia. }
  split; [|split; [exact Hlen|]].
  - rewrite Hlen in Hperm. cbn [seq] in Hperm. apply Permutation_cons_inv in Hperm.
    rewrite <- seq_shift in Hperm. apply Permutation_map_inv in Hperm. destruct Hperm as (l & He & Hpl).
    assert (l = s).
    { clear - He. revert l He. induction s as [|a s IH]; intros [|b l] He; cbn in He; try discriminate; [reflexivity|].
      injection He; intros H1 H2. f_equal; [lia|apply IH; exact H1]. }
    subst l. symmetry; exact Hpl.
  - intros ph ix jx Hrg Hl Hk. rewrite promote_get. apply Hg; [exact Hrg|cbn; congruence|].
    intros [|k] Hlt; [reflexivity|]. cbn [nth length] in *. rewrite map_length in Hlt.
    rewrite nth_map_lt with (d' := 0%nat) by lia. apply Hk; lia. Qed.
End Aux.
