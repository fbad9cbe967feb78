(** Proofs about the tiling model. *)
From Verif Require Import Base BaseLemmas Lattice LatticeSpec.
Open Scope Z_scope.
Open Scope res_scope.

Lemma pbc1_ok n x : n <> 0 -> pbc1 n x = Ok (x mod n).
Proof. intros Hn; unfold pbc1, pymod. destruct (n =? 0) eqn:E; [lia|].
  now rewrite Z.mod_add. Qed.

Lemma pbc_ok nX nY c : nX <> 0 -> nY <> 0 ->
  pbc nX nY c = Ok (fst c mod nX, snd c mod nY).
Proof. intros HX HY; unfold pbc; now rewrite !pbc1_ok. Qed.

Lemma lex_le_cleb a b : lex_le a b <-> cleb a b = true.
Proof. unfold lex_le, cleb; lia. Qed.

Section Enumerate.
Context {A : Type}.

Lemma map_fst_combine {B C} (l : list B) (l' : list C) :
  length l = length l' -> map fst (combine l l') = l.
Proof. revert l'; induction l as [|b l IH]; intros [|c l']; cbn; intros Hl; try discriminate; auto.
  f_equal; auto. Qed.

Lemma map_fst_enumerate (l : list A) : map fst (enumerate l) = zrange (Z.of_nat (length l)).
Proof. apply map_fst_combine. rewrite length_zrange; lia. Qed.

Lemma In_combine_seq (l : list A) s k a :
  In (k, a) (combine (map Z.of_nat (seq s (length l))) l) <->
  exists i, k = Z.of_nat (s + i) /\ nth_error l i = Some a.
Proof. revert s; induction l as [|b l IH]; intros s; cbn.
  - split; [contradiction|intros (i & _ & Hi); destruct i; discriminate].
  - rewrite IH; split.
    + intros [He|(i & Hk & Hi)].
      * inv He. exists 0%nat; split; [f_equal; lia|reflexivity].
      * exists (S i); split; [rewrite Hk; f_equal; lia|exact Hi].
    + intros ([|i] & Hk & Hi).
      * left; cbn in Hi; rewrite Nat.add_0_r in Hk; congruence.
      * right; exists i; split; [rewrite Hk; f_equal; lia|exact Hi]. Qed.

Lemma In_enumerate (l : list A) k a :
  In (k, a) (enumerate l) <-> 0 <= k /\ nth_error l (Z.to_nat k) = Some a.
Proof. unfold enumerate, zrange. rewrite Nat2Z.id, In_combine_seq; split.
  - intros (i & -> & Hi); split; [lia|]. now rewrite Nat2Z.id.
  - intros (Hk & Hi); exists (Z.to_nat k); split; [lia|exact Hi]. Qed.
End Enumerate.

Section Proofs.
Context {L : Type} `{EqDec L}.
Implicit Types (rows : list (list L)).

Definition s2i_list rows : list (coord * L) :=
  flat_map (fun nyrow => map (fun nxl => ((fst nxl, fst nyrow), snd nxl))
                             (enumerate (snd nyrow))) (enumerate rows).

Lemma In_s2i_list rows x y l :
  In ((x, y), l) (s2i_list rows) <->
  exists row, 0 <= y /\ nth_error rows (Z.to_nat y) = Some row /\
              0 <= x /\ nth_error row (Z.to_nat x) = Some l.
Proof. unfold s2i_list. rewrite in_flat_map; split.
  - intros ([ny row] & Hin & Hm). apply In_enumerate in Hin. cbn in Hm.
    apply in_map_iff in Hm. destruct Hm as ([nx l'] & He & Hx). cbn in He; inv He.
    apply In_enumerate in Hx. exists row; tauto.
  - intros (row & Hy & Hr & Hx & Hl). exists (y, row); split.
    + apply In_enumerate; auto.
    + cbn. apply in_map_iff. exists (x, l); split; [reflexivity|apply In_enumerate; auto]. Qed.

Lemma NoDup_s2i_keys rows : NoDup (map fst (s2i_list rows)).
Proof. unfold s2i_list.
  assert (Hn : NoDup (map fst (enumerate rows)))
    by (rewrite map_fst_enumerate; apply NoDup_zrange).
  revert Hn; generalize (enumerate rows). induction l as [|[y row] l IH]; cbn; intros Hn.
  - constructor.
  - inv Hn. rewrite map_app. apply NoDup_app_intro; [|auto|].
    + rewrite map_map. cbn [fst snd].
      replace (map _ (enumerate row)) with
        (map (fun z => (z, y) : coord) (map fst (enumerate row))) by (rewrite map_map; reflexivity).
      apply FinFun.Injective_map_NoDup; [intros a b Hab; congruence|].
      rewrite map_fst_enumerate; apply NoDup_zrange.
    + intros [a b] Ha Hb. rewrite map_map in Ha; cbn in Ha.
      apply in_map_iff in Ha; destruct Ha as ([x1 l1] & He & _); inv He.
      apply in_map_iff in Hb; destruct Hb as ([c1 l2] & He & Hb). cbn in He; subst c1.
      apply in_flat_map in Hb; destruct Hb as ([y' row'] & Hi & Hb). cbn in Hb.
      apply in_map_iff in Hb; destruct Hb as ([x3 l3] & He & _). inv He.
      match goal with Hx : ~ In _ _ |- _ => apply Hx end.
      change b with (fst (b, row')). apply in_map; exact Hi. Qed.

Lemma dget_s2i rows x y l :
  dget (mk_site2index rows) (x, y) = Some l <->
  exists row, 0 <= y /\ nth_error rows (Z.to_nat y) = Some row /\
              0 <= x /\ nth_error row (Z.to_nat x) = Some l.
Proof. unfold mk_site2index. fold (s2i_list rows).
  rewrite dict_of_nodup by apply NoDup_s2i_keys. rewrite <- In_s2i_list; split.
  - apply dget_In.
  - apply In_dget; apply NoDup_s2i_keys. Qed.

(** *** rectangular patterns *)
Definition nXof rows : Z := match rows with [] => 0 | row0 :: _ => Z.of_nat (length row0) end.
Definition nYof rows : Z := Z.of_nat (length rows).

Lemma rect_len rows row : rectangular rows -> In row rows -> Z.of_nat (length row) = nXof rows.
Proof. intros Hr Hi; unfold nXof; destruct rows as [|row0 rows]; [contradiction|].
  f_equal; apply Hr; [exact Hi|left; reflexivity]. Qed.

Lemma rect_check rows row0 rest : rows = row0 :: rest ->
  existsb (fun row => negb (Z.of_nat (length row) =? Z.of_nat (length row0))) rows = false
  <-> rectangular rows.
Proof. intros Hrows.
  assert (Hf : existsb (fun row => negb (Z.of_nat (length row) =? Z.of_nat (length row0))) rows = false
     <-> forall r, In r rows -> length r = length row0).
  { clear Hrows. induction rows as [|r rows IH]; cbn.
    - split; [contradiction|reflexivity].
    - rewrite orb_false_iff, negb_false_iff, IH, Z.eqb_eq, Nat2Z.inj_iff; split.
      + intros [He Hr] r' [<-|Hi]; auto.
      + intros Hr; split; auto. }
  rewrite Hf; split; intros Hr.
  - intros r1 r2 H1 H2; rewrite (Hr r1), (Hr r2); auto.
  - intros r Hi; apply Hr; [exact Hi|subst; left; reflexivity]. Qed.

Lemma nth_error_row_in rows y row : nth_error rows y = Some row -> In row rows.
Proof. apply nth_error_In. Qed.

(** label lookup in the dictionary with periodic reduction = [tile] *)
Lemma dget_s2i_tile rows x y : rectangular rows -> 0 <= x < nXof rows -> 0 <= y < nYof rows ->
  dget (mk_site2index rows) (x, y) = tile rows (x, y) /\ tile rows (x, y) <> None.
Proof. intros Hr Hx Hy.
  assert (Hlt : (Z.to_nat y < length rows)%nat) by (unfold nYof in Hy; lia).
  destruct (nth_error rows (Z.to_nat y)) as [row|] eqn:Er;
    [|apply nth_error_None in Er; lia].
  assert (Hlen := rect_len rows row Hr (nth_error_In _ _ Er)).
  destruct (nth_error row (Z.to_nat x)) as [l|] eqn:El;
    [|apply nth_error_None in El; lia].
  assert (Hd : dget (mk_site2index rows) (x, y) = Some l).
  { apply dget_s2i; exists row; repeat split; try lia; assumption. }
  assert (Ht : tile rows (x, y) = Some l).
  { unfold tile; cbn [fst snd]. unfold nYof in Hy. rewrite (Z.mod_small y) by lia.
    rewrite Er. rewrite Z.mod_small by lia. exact El. }
  rewrite Hd, Ht; split; [reflexivity|discriminate]. Qed.

Lemma tile_mod rows x y : rectangular rows -> 0 < nXof rows ->
  tile rows (x mod nXof rows, y mod nYof rows) = tile rows (x, y).
Proof. intros Hr HX. unfold tile; cbn [fst snd]. unfold nYof.
  assert (HY : Z.of_nat (length rows) <> 0) by (destruct rows; cbn in *; lia).
  rewrite Z.mod_mod by exact HY.
  destruct (nth_error rows _) as [row|] eqn:Er; [|reflexivity].
  rewrite (rect_len rows row Hr (nth_error_In _ _ Er)).
  rewrite Z.mod_mod by lia. reflexivity. Qed.

Lemma nX_pos_rows rows : 0 < nXof rows -> 0 < nYof rows.
Proof. unfold nXof, nYof; destruct rows; cbn [length]; lia. Qed.

Lemma s2i_pbc_ok rows c : rectangular rows -> 0 < nXof rows ->
  exists l, site2index_pbc (mk_site2index rows) (nXof rows) (nYof rows) c = Ok l
            /\ tile rows c = Some l.
Proof. intros Hr HX. assert (HY := nX_pos_rows rows HX).
  unfold site2index_pbc. rewrite pbc_ok by lia. cbn [bind].
  destruct c as [x y]; cbn [fst snd].
  destruct (dget_s2i_tile rows (x mod nXof rows) (y mod nYof rows) Hr) as [He Hn];
    [apply Z.mod_pos_bound; lia|apply Z.mod_pos_bound; lia|].
  rewrite tile_mod in He, Hn by assumption.
  destruct (tile rows (x, y)) as [l|]; [|congruence].
  exists l; split; [apply dget_exn_ok; exact He|reflexivity]. Qed.

(** *** the collecting loop *)
Definition trip := (coord * L * (@env4 L))%type.
Definition t_c (t : trip) : coord := fst (fst t).
Definition t_l (t : trip) : L := snd (fst t).
Definition t_e (t : trip) : @env4 L := snd t.

Definition look (s2i : dict coord L) nX nY (c : coord) : res trip :=
  label <- dget_exn s2i c ;; env <- env_of s2i nX nY c ;; Ok ((c, label), env).

Definition has_label (l : L) (t : trip) : bool := eqb (t_l t) l.
Definition opt_list {A} (l : list A) : option (list A) :=
  match l with [] => None | _ => Some l end.

Definition collected (tr : list trip) (st : dict L (list coord) * dict L (list env4)) : Prop :=
  NoDup (dkeys (fst st)) /\ NoDup (dkeys (snd st)) /\
  (forall l, dget (fst st) l = opt_list (map t_c (filter (has_label l) tr))) /\
  (forall l, dget (snd st) l = opt_list (map t_e (filter (has_label l) tr))).

Lemma opt_list_map {A B} (f : A -> B) l : opt_list (map f l) = option_map (map f) (opt_list l).
Proof. destruct l; reflexivity. Qed.

Lemma opt_list_some {A} (l l' : list A) : opt_list l = Some l' -> l' = l.
Proof. destruct l; cbn; [discriminate|]; intros He; inv He; reflexivity. Qed.

Lemma opt_list_snoc {A} (l : list A) a : opt_list (l ++ [a]) = Some (l ++ [a]).
Proof. destruct l; reflexivity. Qed.

Lemma filter_snoc (tr : list trip) t l :
  filter (has_label l) (tr ++ [t]) =
  if has_label l t then filter (has_label l) tr ++ [t] else filter (has_label l) tr.
Proof. rewrite filter_app; cbn. destruct (has_label l t); [reflexivity|apply app_nil_r]. Qed.

Lemma has_label_self t : has_label (t_l t) t = true.
Proof. apply eqb_true; reflexivity. Qed.

Lemma collected_step s2i nX nY tr st c t :
  collected tr st -> look s2i nX nY c = Ok t ->
  exists st', collect_step s2i nX nY st c = Ok st' /\ collected (tr ++ [t]) st'.
Proof. intros (N1 & N2 & G1 & G2) Hl. unfold look in Hl. bind_inv Hl. bind_inv Hl.
  rename a into label, a0 into env. inv Hl.
  destruct st as [ls le]; cbn [fst snd] in *.
  unfold collect_step. rewrite Ha. cbn [bind]. rewrite Ha0. cbn [bind].
  set (t := ((c, label), env)).
  assert (Hself : has_label label t = true) by (apply (has_label_self t)).
  assert (Hother : forall l, l <> label -> has_label l t = false)
    by (intros l Hn; apply eqb_false; cbn; congruence).
  rewrite (G1 label). destruct (filter (has_label label) tr) as [|t0 ts] eqn:Ef; cbn [map opt_list].
  - eexists; split; [reflexivity|]. split; [|split; [|split]]; cbn [fst snd].
    + now apply NoDup_dset.
    + now apply NoDup_dset.
    + intros l; rewrite dget_dset, filter_snoc. destruct (eq_dec l label) as [->|Hn].
      * rewrite Hself, Ef. reflexivity.
      * rewrite (Hother _ Hn). apply G1.
    + intros l; rewrite dget_dset, filter_snoc. destruct (eq_dec l label) as [->|Hn].
      * rewrite Hself, Ef. reflexivity.
      * rewrite (Hother _ Hn). apply G2.
  - assert (He : dget_exn le label = Ok (map t_e (t0 :: ts))).
    { apply dget_exn_ok. rewrite G2, Ef. reflexivity. }
    rewrite He. cbn [bind].
    eexists; split; [reflexivity|]. split; [|split; [|split]]; cbn [fst snd].
    + now apply NoDup_dset.
    + now apply NoDup_dset.
    + intros l; rewrite dget_dset, filter_snoc. destruct (eq_dec l label) as [->|Hn].
      * rewrite Hself, Ef, map_app. change (map t_c [t]) with [t_c t].
        rewrite opt_list_snoc. reflexivity.
      * rewrite (Hother _ Hn). apply G1.
    + intros l; rewrite dget_dset, filter_snoc. destruct (eq_dec l label) as [->|Hn].
      * rewrite Hself, Ef, map_app. change (map t_e [t]) with [t_e t].
        rewrite opt_list_snoc. reflexivity.
      * rewrite (Hother _ Hn). apply G2. Qed.

Lemma collected_loop s2i nX nY cs tr tr0 st :
  collected tr0 st -> Forall2 (fun c t => look s2i nX nY c = Ok t) cs tr ->
  exists st', foldM (collect_step s2i nX nY) cs st = Ok st' /\ collected (tr0 ++ tr) st'.
Proof. intros Hc Hf; revert tr0 st Hc; induction Hf as [|c t cs tr Hl Hf IH]; intros tr0 st Hc; cbn.
  - exists st; rewrite app_nil_r; auto.
  - destruct (collected_step _ _ _ _ _ _ _ Hc Hl) as (st1 & H1 & H2).
    rewrite H1; cbn [bind]. destruct (IH _ _ H2) as (st2 & H3 & H4).
    exists st2; split; [exact H3|]. rewrite <- app_assoc in H4; exact H4. Qed.

Lemma collected_nil : collected [] ([], []).
Proof. repeat split; try constructor. Qed.

Lemma In_dvals {K V} `{EqDec K} (d : dict K V) v :
  NoDup (dkeys d) -> In v (dvals d) <-> exists k, dget d k = Some v.
Proof. intros Hd; split.
  - intros Hi; apply in_map_iff in Hi; destruct Hi as ([k v'] & He & Hi); cbn in He; subst.
    exists k; now apply In_dget.
  - intros [k Hk]; apply dget_In in Hk. change v with (snd (k, v)). now apply in_map. Qed.

Lemma filter_label_In l tr t : In t (filter (has_label l) tr) <-> In t tr /\ t_l t = l.
Proof. rewrite filter_In. unfold has_label; rewrite eqb_true; tauto. Qed.

Lemma ambiguous_false (envs : list env4) :
  ambiguous envs = false <-> forall a b, In a envs -> In b envs -> a = b.
Proof. unfold ambiguous. rewrite <- length_nodup_le1. rewrite Z.ltb_ge. lia. Qed.

Lemma ambiguous_all tr st : collected tr st ->
  existsb ambiguous (dvals (snd st)) = false <->
  forall t1 t2, In t1 tr -> In t2 tr -> t_l t1 = t_l t2 -> t_e t1 = t_e t2.
Proof. intros (N1 & N2 & G1 & G2). split.
  - intros He t1 t2 H1 H2 Hl.
    destruct (existsb ambiguous (dvals (snd st))) eqn:E; [discriminate|]. clear He.
    assert (Hall : forall envs, In envs (dvals (snd st)) -> ambiguous envs = false).
    { intros envs Hi. destruct (ambiguous envs) eqn:Ea; [|reflexivity].
      assert (existsb ambiguous (dvals (snd st)) = true)
        by (apply existsb_exists; eauto). congruence. }
    assert (Hd : dget (snd st) (t_l t1) = Some (map t_e (filter (has_label (t_l t1)) tr))).
    { rewrite G2. destruct (filter _ _) eqn:Ef; [|reflexivity].
      assert (Hin : In t1 (filter (has_label (t_l t1)) tr)) by (apply filter_label_In; auto).
      rewrite Ef in Hin; destruct Hin. }
    assert (Ha := Hall _ (proj2 (In_dvals _ _ N2) (ex_intro _ _ Hd))).
    rewrite ambiguous_false in Ha. apply Ha; apply in_map; apply filter_label_In; auto.
  - intros He. destruct (existsb ambiguous (dvals (snd st))) eqn:E; [|reflexivity].
    apply existsb_exists in E; destruct E as (envs & Hi & Ha).
    apply (In_dvals _ _ N2) in Hi; destruct Hi as (l & Hl). rewrite G2 in Hl.
    assert (Hx : ambiguous envs = false); [|congruence].
    apply ambiguous_false. assert (Hm : envs = map t_e (filter (has_label l) tr)).
    { now apply opt_list_some. }
    rewrite Hm. intros a b Ha1 Hb1. apply in_map_iff in Ha1, Hb1.
    destruct Ha1 as (t1 & <- & H1), Hb1 as (t2 & <- & H2).
    apply filter_label_In in H1, H2. apply He; [tauto|tauto|]. destruct H1, H2; congruence. Qed.

Lemma mins_ok tr st : collected tr st -> exists mins, mapM cmin (dvals (fst st)) = Ok mins.
Proof. intros (N1 & N2 & G1 & G2).
  assert (Hne : forall cs, In cs (dvals (fst st)) -> cs <> []).
  { intros cs Hi; apply (In_dvals _ _ N1) in Hi; destruct Hi as (l & Hl).
    rewrite G1 in Hl. destruct (map t_c _); cbn in Hl; inv Hl; discriminate. }
  revert Hne; generalize (dvals (fst st)). induction l as [|cs l IH]; cbn; intros Hne; [eauto|].
  destruct (cmin_ok cs) as (m & Hm); [auto|]. rewrite Hm; cbn.
  destruct IH as (ms & Hms); [auto|]. rewrite Hms; cbn; eauto. Qed.

(** what the list of minima contains *)
Lemma mins_spec tr st mins : NoDup (map t_c tr) -> collected tr st ->
  mapM cmin (dvals (fst st)) = Ok mins ->
  NoDup mins /\
  forall m, In m mins <-> exists t, In t tr /\ t_c t = m /\
     forall t', In t' tr -> t_l t' = t_l t -> cleb m (t_c t') = true.
Proof. intros Hnd (N1 & N2 & G1 & G2) Hm. apply mapM_ok in Hm.
  assert (Hinj : forall t t', In t tr -> In t' tr -> t_c t = t_c t' -> t = t').
  { clear -Hnd. induction tr as [|a tr IH]; cbn; intros t t' Ht Ht' He; [contradiction|].
    cbn in Hnd; inv Hnd. destruct Ht as [<-|Ht], Ht' as [<-|Ht']; auto.
    - exfalso; apply H1; rewrite He; now apply in_map.
    - exfalso; apply H1; rewrite <- He; now apply in_map. }
  assert (Hchar : forall l cs m, dget (fst st) l = Some cs -> cmin cs = Ok m ->
     exists t, In t tr /\ t_c t = m /\ t_l t = l /\
       forall t', In t' tr -> t_l t' = l -> cleb m (t_c t') = true).
  { intros l cs m Hl Hcm. apply cmin_spec in Hcm. rewrite G1 in Hl.
    assert (He : cs = map t_c (filter (has_label l) tr))
      by (now apply opt_list_some).
    subst cs. destruct Hcm as [Hi Hle]. apply in_map_iff in Hi; destruct Hi as (t & <- & Ht).
    apply filter_label_In in Ht. exists t; repeat split; try tauto.
    intros t' Ht' Hl'. apply Hle. apply in_map. apply filter_label_In; auto. }
  split.
  - (* distinct labels give distinct minima *)
    assert (Hk : forall k cs, In (k, cs) (fst st) -> dget (fst st) k = Some cs)
      by (intros k cs Hi; now apply In_dget).
    clear Hnd N2 G1 G2.
    revert Hm Hk N1. unfold dvals, dkeys. generalize (fst st) at 1 2 4.
    intros d. revert mins. induction d as [|[k cs] d IH]; intros mins Hm Hk Hn.
    + inversion Hm. constructor.
    + cbn [map fst snd] in Hm, Hn. inversion Hm as [|cs' m l' ms Hcs Hms E1 E2]; subst; clear Hm.
      apply NoDup_cons_iff in Hn. destruct Hn as [Hnk Hn]. constructor.
      * intros Hi. destruct (Forall2_In_r _ _ _ _ Hms Hi) as (cs' & Hcs' & Hm').
        apply in_map_iff in Hcs'. destruct Hcs' as ([k' cs2] & He & Hi'). cbn in He; subst cs2.
        destruct (Hchar k cs m (Hk _ _ (or_introl eq_refl)) Hcs) as (t & Ht & Hc & Hlt & _).
        destruct (Hchar k' cs' m (Hk _ _ (or_intror Hi')) Hm') as (t' & Ht' & Hc' & Hlt' & _).
        assert (t = t') by (apply Hinj; congruence). subst t'.
        apply Hnk. replace k with k' by congruence.
        change k' with (fst (k', cs')). now apply in_map.
      * apply IH; auto. intros k' cs' Hi'; apply Hk; right; exact Hi'.
  - intros m; split.
    + intros Hi. assert (Hex := Forall2_In_r _ _ _ _ Hm Hi).
      destruct Hex as (cs & Hics & Hcm). apply (In_dvals _ _ N1) in Hics. destruct Hics as (l & Hl).
      destruct (Hchar _ _ _ Hl Hcm) as (t & Ht & Hc & Hlt & Hle).
      exists t; repeat split; auto. intros t' Ht' He; apply Hle; congruence.
    + intros (t & Ht & Hc & Hle). set (l := t_l t).
      assert (Hd : dget (fst st) l = Some (map t_c (filter (has_label l) tr))).
      { rewrite G1. destruct (filter (has_label l) tr) eqn:Ef; [|reflexivity].
        assert (Hin : In t (filter (has_label l) tr)) by (apply filter_label_In; auto).
        rewrite Ef in Hin; destruct Hin. }
      assert (Hi : In (map t_c (filter (has_label l) tr)) (dvals (fst st)))
        by (apply In_dvals; eauto).
      assert (Hex := Forall2_In_l _ _ _ _ Hm Hi).
      destruct Hex as (m' & Hm' & Hcm).
      destruct (Hchar _ _ _ Hd Hcm) as (t' & Ht' & Hc' & Hl' & Hle').
      replace m with m'; [exact Hm'|]. apply cleb_antisym.
      * rewrite <- Hc. apply Hle'; auto.
      * rewrite <- Hc'. apply Hle; auto. Qed.

(** *** cells *)
Lemma In_cells nX nY x y : In (x, y) (cells nX nY) <-> 0 <= x < nX /\ 0 <= y < nY.
Proof. unfold cells. rewrite in_flat_map; split.
  - intros (nx & Hx & Hm). apply in_map_iff in Hm. destruct Hm as (ny & He & Hy). inv He.
    apply In_zrange in Hx, Hy. auto.
  - intros [Hx Hy]. exists x; split; [now apply In_zrange|].
    apply in_map_iff. exists y; split; [reflexivity|now apply In_zrange]. Qed.

Lemma NoDup_cells nX nY : NoDup (cells nX nY).
Proof. unfold cells. generalize (NoDup_zrange nX). generalize (zrange nX).
  induction l as [|x l IH]; cbn; intros Hn; [constructor|]. inv Hn. apply NoDup_app_intro; auto.
  - apply FinFun.Injective_map_NoDup; [intros a b Hab; congruence|apply NoDup_zrange].
  - intros [a b] Ha Hb. apply in_map_iff in Ha; destruct Ha as (y & He & _); inv He.
    apply in_flat_map in Hb; destruct Hb as (x' & Hx' & Hb).
    apply in_map_iff in Hb; destruct Hb as (y' & He & _); inv He. contradiction. Qed.

Lemma in_cell_cells rows c : rectangular rows ->
  in_cell rows c <-> In c (cells (nXof rows) (nYof rows)).
Proof. intros Hr. destruct c as [x y]. rewrite In_cells. unfold in_cell; cbn [fst snd]. split.
  - intros (Hy & row & Hrow & Hx). rewrite (rect_len _ _ Hr (nth_error_In _ _ Hrow)) in Hx.
    split; [exact Hx|exact Hy].
  - intros (Hx & Hy). split; [exact Hy|].
    destruct (nth_error rows (Z.to_nat y)) as [row|] eqn:Er.
    + exists row; split; [reflexivity|]. rewrite (rect_len _ _ Hr (nth_error_In _ _ Er)). exact Hx.
    + apply nth_error_None in Er. unfold nYof in Hy. lia. Qed.

Definition tile_env rows (v : coord) : option env4 :=
  match tile rows (cadd v (-1, 0)), tile rows (cadd v (0, -1)),
        tile rows (cadd v (1, 0)), tile rows (cadd v (0, 1)) with
  | Some l, Some u, Some r, Some d => Some (l, u, r, d)
  | _, _, _, _ => None
  end.

Lemma env_of_ok rows c : rectangular rows -> 0 < nXof rows ->
  exists e, env_of (mk_site2index rows) (nXof rows) (nYof rows) c = Ok e /\ tile_env rows c = Some e.
Proof. intros Hr HX. unfold env_of, tile_env.
  destruct c as [x y]; unfold cadd; cbn [fst snd].
  replace (x + -1) with (x - 1) by lia. replace (y + -1) with (y - 1) by lia.
  rewrite !Z.add_0_r.
  destruct (s2i_pbc_ok rows (x - 1, y) Hr HX) as (l & -> & ->).
  destruct (s2i_pbc_ok rows (x, y - 1) Hr HX) as (u & -> & ->).
  destruct (s2i_pbc_ok rows (x + 1, y) Hr HX) as (r & -> & ->).
  destruct (s2i_pbc_ok rows (x, y + 1) Hr HX) as (d & -> & ->).
  cbn. eauto. Qed.

Lemma look_cells rows : rectangular rows ->
  exists tr, Forall2 (fun c t => look (mk_site2index rows) (nXof rows) (nYof rows) c = Ok t)
               (cells (nXof rows) (nYof rows)) tr
          /\ map t_c tr = cells (nXof rows) (nYof rows)
          /\ Forall (fun t => tile rows (t_c t) = Some (t_l t) /\ tile_env rows (t_c t) = Some (t_e t)) tr.
Proof. intros Hr.
  assert (Hall : forall c, In c (cells (nXof rows) (nYof rows)) -> exists t,
     look (mk_site2index rows) (nXof rows) (nYof rows) c = Ok t /\ t_c t = c /\
     tile rows c = Some (t_l t) /\ tile_env rows c = Some (t_e t)).
  { intros [x y] Hi. apply In_cells in Hi. destruct Hi as [Hx Hy].
    destruct (dget_s2i_tile rows x y Hr Hx Hy) as [Hd Hn].
    destruct (tile rows (x, y)) as [l|] eqn:Et; [|congruence].
    destruct (env_of_ok rows (x, y) Hr) as (e & He & Hte); [lia|].
    exists ((x, y), l, e). unfold look. apply dget_exn_ok in Hd. rewrite Hd. cbn [bind].
    rewrite He. cbn. auto. }
  revert Hall. generalize (cells (nXof rows) (nYof rows)).
  induction l as [|c l IH]; intros Hall.
  - exists []; repeat split; constructor.
  - destruct IH as (tr & H1 & H2 & H3); [intros c' Hc'; apply Hall; right; exact Hc'|].
    destruct (Hall c (or_introl eq_refl)) as (t & Ht & Hc & Hl & He).
    exists (t :: tr); repeat split.
    + constructor; assumption.
    + cbn; congruence.
    + constructor; [rewrite Hc; auto|assumption]. Qed.

Lemma tile_cong rows v w : rectangular rows -> 0 < nXof rows ->
  fst v mod nXof rows = fst w mod nXof rows -> snd v mod nYof rows = snd w mod nYof rows ->
  tile rows v = tile rows w.
Proof. intros Hr HX H1 H2. destruct v as [x y], w as [x' y']; cbn [fst snd] in *.
  rewrite <- (tile_mod rows x y), <- (tile_mod rows x' y') by assumption. congruence. Qed.

Lemma tile_env_mod rows x y d : rectangular rows -> 0 < nXof rows ->
  tile rows (cadd (x mod nXof rows, y mod nYof rows) d) = tile rows (cadd (x, y) d).
Proof. intros Hr HX. assert (HY := nX_pos_rows _ HX).
  apply tile_cong; try assumption; unfold cadd; cbn [fst snd];
  now rewrite Zplus_mod_idemp_l. Qed.

Lemma tile_some rows v : rectangular rows -> 0 < nXof rows -> exists l, tile rows v = Some l.
Proof. intros Hr HX. destruct (s2i_pbc_ok rows v Hr HX) as (l & _ & Hl). eauto. Qed.

Lemma tile_none rows v : rectangular rows -> nXof rows = 0 -> tile rows v = None.
Proof. intros Hr HX. unfold tile. destruct (nth_error rows _) as [row|] eqn:E; [|reflexivity].
  assert (Hl := rect_len _ _ Hr (nth_error_In _ _ E)).
  apply nth_error_None. lia. Qed.

Lemma nX_nonneg rows : 0 <= nXof rows.
Proof. unfold nXof; destruct rows; lia. Qed.

(** consistency of the collected environments = local consistency on the lattice *)
Lemma consistent_cells rows : rectangular rows ->
  locally_consistent rows <->
  forall c c', In c (cells (nXof rows) (nYof rows)) -> In c' (cells (nXof rows) (nYof rows)) ->
     tile rows c = tile rows c' -> tile_env rows c = tile_env rows c'.
Proof. intros Hr. split.
  - intros Hc c c' _ _ He. unfold tile_env.
    rewrite (Hc c c' (-1, 0)), (Hc c c' (0, -1)), (Hc c c' (1, 0)), (Hc c c' (0, 1));
      unfold is_unit; auto.
  - intros Hc v w d Hd He. assert (HX := nX_nonneg rows).
    destruct (Z.eq_dec (nXof rows) 0) as [E0|En]; [now rewrite !tile_none|].
    assert (HX' : 0 < nXof rows) by lia. assert (HY := nX_pos_rows _ HX').
    destruct v as [x y], w as [x' y'].
    assert (Hv : In (x mod nXof rows, y mod nYof rows) (cells (nXof rows) (nYof rows)))
      by (apply In_cells; split; apply Z.mod_pos_bound; lia).
    assert (Hw : In (x' mod nXof rows, y' mod nYof rows) (cells (nXof rows) (nYof rows)))
      by (apply In_cells; split; apply Z.mod_pos_bound; lia).
    specialize (Hc _ _ Hv Hw). rewrite !tile_mod in Hc by assumption. specialize (Hc He).
    unfold tile_env in Hc. rewrite !tile_env_mod in Hc by assumption.
    destruct (tile_some rows (cadd (x, y) (-1, 0)) Hr HX') as (l1 & E1).
    destruct (tile_some rows (cadd (x, y) (0, -1)) Hr HX') as (l2 & E2).
    destruct (tile_some rows (cadd (x, y) (1, 0)) Hr HX') as (l3 & E3).
    destruct (tile_some rows (cadd (x, y) (0, 1)) Hr HX') as (l4 & E4).
    destruct (tile_some rows (cadd (x', y') (-1, 0)) Hr HX') as (l1' & E1').
    destruct (tile_some rows (cadd (x', y') (0, -1)) Hr HX') as (l2' & E2').
    destruct (tile_some rows (cadd (x', y') (1, 0)) Hr HX') as (l3' & E3').
    destruct (tile_some rows (cadd (x', y') (0, 1)) Hr HX') as (l4' & E4').
    rewrite E1, E2, E3, E4, E1', E2', E3', E4' in Hc. inv Hc.
    destruct Hd as [->|[->|[->| ->]]]; congruence. Qed.

(** *** the main characterisation *)
Lemma from_rows_char rows : rows <> [] -> rectangular rows ->
  exists tr st, collected tr st /\
    map t_c tr = cells (nXof rows) (nYof rows) /\
    Forall (fun t => tile rows (t_c t) = Some (t_l t) /\ tile_env rows (t_c t) = Some (t_e t)) tr /\
    from_rows rows =
      if existsb ambiguous (dvals (snd st)) then Err PyException
      else mins <- mapM cmin (dvals (fst st)) ;; Ok (csort mins, mk_site2index rows).
Proof. intros Hne Hr. destruct (look_cells rows Hr) as (tr & Hf & Hmap & Hall).
  destruct (collected_loop _ _ _ _ _ _ _ collected_nil Hf) as (st & Hst & Hcol).
  cbn [app] in Hcol. exists tr, st; repeat split; try assumption; try apply Hcol.
  destruct rows as [|row0 rest] eqn:Erows; [congruence|]. rewrite <- Erows in *.
  unfold from_rows. rewrite Erows at 1.
  assert (Hchk := proj2 (rect_check rows row0 rest Erows) Hr).
  rewrite Hchk.
  replace (Z.of_nat (length row0)) with (nXof rows) by (rewrite Erows; reflexivity).
  change (Z.of_nat (length rows)) with (nYof rows).
  rewrite Hst. cbn [bind]. destruct st as [ls le]. reflexivity. Qed.

Lemma consistent_amb rows tr st : rectangular rows -> collected tr st ->
  map t_c tr = cells (nXof rows) (nYof rows) ->
  Forall (fun t => tile rows (t_c t) = Some (t_l t) /\ tile_env rows (t_c t) = Some (t_e t)) tr ->
  existsb ambiguous (dvals (snd st)) = false <-> locally_consistent rows.
Proof. intros Hr Hcol Hmap Hall. rewrite (ambiguous_all _ _ Hcol), (consistent_cells _ Hr).
  rewrite Forall_forall in Hall. split.
  - intros Ht c c' Hc Hc' He. rewrite <- Hmap in Hc, Hc'.
    apply in_map_iff in Hc, Hc'. destruct Hc as (t & <- & Hi), Hc' as (t' & <- & Hi').
    destruct (Hall _ Hi) as [A1 A2], (Hall _ Hi') as [B1 B2]. rewrite A2, B2. f_equal.
    apply Ht; auto. congruence.
  - intros Hc t1 t2 H1 H2 He. destruct (Hall _ H1) as [A1 A2], (Hall _ H2) as [B1 B2].
    assert (Hx : tile_env rows (t_c t1) = tile_env rows (t_c t2)).
    { apply Hc; try (rewrite <- Hmap; now apply in_map). congruence. }
    congruence. Qed.

Lemma from_rows_accepts_iff rows :
  (exists r, from_rows rows = Ok r) <->
  rows <> [] /\ rectangular rows /\ locally_consistent rows.
Proof. split.
  - intros [r Hr]. destruct rows as [|row0 rest] eqn:Erows; [discriminate|]. rewrite <- Erows in *.
    assert (Hne : rows <> []) by congruence. split; [exact Hne|].
    assert (Hrect : rectangular rows).
    { apply (rect_check rows row0 rest Erows). unfold from_rows in Hr. rewrite Erows in Hr at 1.
      destruct (existsb (fun row => negb (Z.of_nat (length row) =? Z.of_nat (length row0))) rows);
        [discriminate|reflexivity]. }
    split; [exact Hrect|].
    destruct (from_rows_char rows Hne Hrect) as (tr & st & Hcol & Hmap & Hall & He).
    apply (consistent_amb _ _ _ Hrect Hcol Hmap Hall).
    rewrite He in Hr. destruct (existsb ambiguous (dvals (snd st))); [discriminate|reflexivity].
  - intros (Hne & Hrect & Hcons).
    destruct (from_rows_char rows Hne Hrect) as (tr & st & Hcol & Hmap & Hall & He).
    rewrite He. rewrite (proj2 (consistent_amb _ _ _ Hrect Hcol Hmap Hall) Hcons).
    destruct (mins_ok _ _ Hcol) as (mins & Hm). rewrite Hm. cbn. eauto. Qed.

Lemma from_rows_errors rows :
  (rows = [] -> from_rows rows = Err IndexError) /\
  (rows <> [] -> ~ (rectangular rows /\ locally_consistent rows) -> from_rows rows = Err PyException).
Proof. split; [intros ->; reflexivity|]. intros Hne Hnot.
  destruct rows as [|row0 rest] eqn:Erows; [congruence|]. rewrite <- Erows in *.
  destruct (existsb (fun row => negb (Z.of_nat (length row) =? Z.of_nat (length row0))) rows) eqn:Ech.
  - unfold from_rows. rewrite Erows at 1. rewrite Ech. reflexivity.
  - assert (Hrect := proj1 (rect_check rows row0 rest Erows) Ech).
    destruct (from_rows_char rows Hne Hrect) as (tr & st & Hcol & Hmap & Hall & He).
    rewrite He. destruct (existsb ambiguous (dvals (snd st))) eqn:Ea; [reflexivity|].
    apply (consistent_amb _ _ _ Hrect Hcol Hmap Hall) in Ea. tauto. Qed.

Lemma StronglySorted_lt l : StronglySorted cle l -> NoDup l -> StronglySorted lex_lt l.
Proof. induction 1 as [|a l Hs IH Hf]; intros Hn; constructor; inv Hn; auto.
  rewrite Forall_forall in *. intros b Hb. specialize (Hf _ Hb). unfold cle in Hf.
  apply lex_le_cleb in Hf. unfold lex_le in Hf; unfold lex_lt.
  destruct Hf as [Hf|[He Hf]]; [auto|]. right; split; [exact He|].
  assert (snd a <> snd b); [|lia]. intros E2. apply H2.
  destruct a, b; cbn in *; subst; exact Hb. Qed.

Lemma from_rows_result rows sites s2i : from_rows rows = Ok (sites, s2i) ->
  StronglySorted lex_lt sites /\
  (forall c, In c sites <-> smallest_of_label rows c) /\
  (forall c, in_cell rows c -> dget s2i c = tile rows c /\ tile rows c <> None) /\
  (forall c, ~ in_cell rows c -> dget s2i c = None).
Proof. intros Hf. assert (Hacc : exists r, from_rows rows = Ok r) by eauto.
  apply from_rows_accepts_iff in Hacc. destruct Hacc as (Hne & Hrect & Hcons).
  destruct (from_rows_char rows Hne Hrect) as (tr & st & Hcol & Hmap & Hall & He).
  rewrite He in Hf. destruct (existsb ambiguous (dvals (snd st))); [discriminate|].
  bind_inv Hf. rename a into mins. inv Hf.
  assert (Hnd : NoDup (map t_c tr)) by (rewrite Hmap; apply NoDup_cells).
  destruct (mins_spec tr st mins Hnd Hcol Ha) as [Hndm Hin].
  rewrite Forall_forall in Hall.
  split; [|split; [|split]].
  - apply StronglySorted_lt; [apply csort_sorted|].
    eapply Permutation_NoDup; [apply Permutation_sym, csort_perm|exact Hndm].
  - intros c. assert (Hpi : In c (csort mins) <-> In c mins).
    { split; apply Permutation_in; [|apply Permutation_sym]; apply csort_perm. }
    rewrite Hpi, Hin. unfold smallest_of_label. rewrite (in_cell_cells _ _ Hrect), <- Hmap. split.
    + intros (t & Ht & <- & Hle). split; [now apply in_map|].
      intros c' Hc' Hl. rewrite (in_cell_cells _ _ Hrect), <- Hmap in Hc'.
      apply in_map_iff in Hc'. destruct Hc' as (t' & <- & Ht').
      apply lex_le_cleb. apply Hle; [exact Ht'|].
      destruct (Hall _ Ht) as [A _], (Hall _ Ht') as [B _]. congruence.
    + intros (Hc & Hle). apply in_map_iff in Hc. destruct Hc as (t & <- & Ht).
      exists t; repeat split; [exact Ht|]. intros t' Ht' Hl. apply lex_le_cleb. apply Hle.
      * rewrite (in_cell_cells _ _ Hrect), <- Hmap. now apply in_map.
      * destruct (Hall _ Ht) as [A _], (Hall _ Ht') as [B _]. congruence.
  - intros [x y] Hc. apply (in_cell_cells _ _ Hrect) in Hc. apply In_cells in Hc.
    destruct Hc as [Hx Hy]. apply dget_s2i_tile; assumption.
  - intros [x y] Hc. destruct (dget (mk_site2index rows) (x, y)) as [l|] eqn:E; [|reflexivity].
    exfalso; apply Hc. apply dget_s2i in E. destruct E as (row & Hy & Hrow & Hx & Hl).
    split; cbn [fst snd].
    + split; [lia|]. assert (Z.to_nat y < length rows)%nat; [|lia].
      apply nth_error_Some; congruence.
    + exists row; split; [exact Hrow|]. split; [lia|].
      assert (Z.to_nat x < length row)%nat; [|lia]. apply nth_error_Some; congruence. Qed.

(** *** dictionary patterns *)
Lemma rows_of_dict_spec (d : dict coord L) rows : rows_of_dict d = Ok rows ->
  rows <> [] /\ rectangular rows /\
  (forall r c, In (r, c) (dkeys d) <-> 0 <= r < Z.of_nat (length rows) /\ 0 <= c < nXof rows) /\
  (forall r c, 0 <= r < Z.of_nat (length rows) -> 0 <= c < nXof rows ->
     tile rows (c, r) = dget d (r, c)).
Proof. unfold rows_of_dict. intros Hd.
  assert (Hdne : d <> []) by (destruct d; [discriminate|congruence]).
  assert (Hd' : (min_row <- zmin_list (map fst (dkeys d)) ;;
    min_col <- zmin_list (map snd (dkeys d)) ;;
    max_row <- zmax_list (map fst (dkeys d)) ;;
    max_col <- zmax_list (map snd (dkeys d)) ;;
    if negb ((min_row =? 0) && (min_col =? 0)) then Err PyException
    else
      match mapM (fun r => mapM (fun c => dget_exn d (r, c)) (zrange (max_col + 1)))
                 (zrange (max_row + 1)) with
      | Ok rows => Ok rows
      | Err _ => Err PyException
      end) = Ok rows) by (destruct d; [discriminate|exact Hd]).
  clear Hd; rename Hd' into Hd.
  bind_inv Hd. bind_inv Hd. bind_inv Hd. bind_inv Hd.
  rename a into min_row, a0 into min_col, a1 into max_row, a2 into max_col.
  apply zmin_list_spec in Ha, Ha0. apply zmax_list_spec in Ha1, Ha2.
  destruct Ha as [_ Hmr], Ha0 as [_ Hmc], Ha1 as [Imr HMr], Ha2 as [Imc HMc].
  destruct ((min_row =? 0) && (min_col =? 0)) eqn:E0; [|discriminate]. cbn [negb] in Hd.
  assert (min_row = 0 /\ min_col = 0) as [-> ->] by lia. clear E0.
  destruct (mapM _ _) as [rs|e] eqn:Em; [|discriminate]. inv Hd.
  assert (Hmr0 : 0 <= max_row) by (apply Hmr; exact Imr).
  assert (Hmc0 : 0 <= max_col) by (apply Hmc; exact Imc).
  apply mapM_ok in Em.
  assert (Hlen : Z.of_nat (length rows) = max_row + 1).
  { apply Forall2_len in Em. rewrite length_zrange in Em. lia. }
  assert (Hnth : forall r, 0 <= r < max_row + 1 -> exists row, nth_error rows (Z.to_nat r) = Some row
     /\ mapM (fun c => dget_exn d (r, c)) (zrange (max_col + 1)) = Ok row).
  { intros r Hr. destruct (nth_error rows (Z.to_nat r)) as [row|] eqn:Er;
      [|apply nth_error_None in Er; lia].
    exists row; split; [reflexivity|].
    exact (Forall2_nth _ _ _ _ _ _ Em (nth_error_zrange _ _ Hr) Er). }
  assert (Hrow : forall row, In row rows -> Z.of_nat (length row) = max_col + 1).
  { intros row Hi. apply In_nth_error in Hi. destruct Hi as (n & Hn).
    assert (Hlt : (n < length rows)%nat) by (apply nth_error_Some; congruence).
    destruct (Hnth (Z.of_nat n)) as (row' & Hr' & Hm'); [lia|]. rewrite Nat2Z.id in Hr'.
    assert (row' = row) by congruence; subst row'.
    apply mapM_ok, Forall2_len in Hm'. rewrite length_zrange in Hm'. lia. }
  assert (Hne : rows <> []) by (destruct rows; cbn in Hlen; [lia|congruence]).
  assert (HnX : nXof rows = max_col + 1).
  { destruct rows as [|row0 rest]; [congruence|]. cbn. apply Hrow; left; reflexivity. }
  assert (Hrect : rectangular rows).
  { intros r1 r2 H1 H2. apply Hrow in H1, H2. lia. }
  assert (Hcell : forall r c, 0 <= r < max_row + 1 -> 0 <= c < max_col + 1 ->
     exists l row, dget d (r, c) = Some l /\ nth_error rows (Z.to_nat r) = Some row
        /\ nth_error row (Z.to_nat c) = Some l).
  { intros r c Hr Hc. destruct (Hnth r Hr) as (row & Hn & Hm).
    apply mapM_ok in Hm.
    destruct (nth_error row (Z.to_nat c)) as [l|] eqn:El.
    - exists l, row; repeat split; auto. apply dget_exn_ok.
      exact (Forall2_nth _ _ _ _ _ _ Hm (nth_error_zrange _ _ Hc) El).
    - apply nth_error_None in El. assert (Hl := Hrow row (nth_error_In _ _ Hn)). lia. }
  split; [exact Hne|]. split; [exact Hrect|]. split.
  - intros r c. rewrite Hlen, HnX. split.
    + intros Hi. assert (Ir : In r (map fst (dkeys d))) by (change r with (fst (r, c)); now apply in_map).
      assert (Ic : In c (map snd (dkeys d))) by (change c with (snd (r, c)); now apply in_map).
      specialize (Hmr _ Ir). specialize (HMr _ Ir). specialize (Hmc _ Ic). specialize (HMc _ Ic). lia.
    + intros [Hr Hc]. destruct (Hcell r c Hr Hc) as (l & row & Hl & _).
      apply dget_Some_key; eauto.
  - intros r c Hr Hc. rewrite Hlen in Hr. rewrite HnX in Hc.
    destruct (Hcell r c Hr Hc) as (l & row & Hl & Hrw & Hel).
    rewrite Hl. unfold tile; cbn [fst snd]. rewrite Z.mod_small by lia. rewrite Hrw.
    rewrite Z.mod_small by (rewrite (Hrow _ (nth_error_In _ _ Hrw)); lia). exact Hel. Qed.

Lemma rows_of_dict_total (d : dict coord L) (nr nc : Z) : 0 < nr -> 0 < nc ->
  (forall r c, In (r, c) (dkeys d) <-> 0 <= r < nr /\ 0 <= c < nc) ->
  exists rows, rows_of_dict d = Ok rows.
Proof. intros Hnr Hnc Hk. unfold rows_of_dict.
  assert (H00 : In (0, 0) (dkeys d)) by (apply Hk; lia).
  assert (HMM : In (nr - 1, nc - 1) (dkeys d)) by (apply Hk; lia).
  destruct d as [|kv d0] eqn:Ed; [destruct H00|]. rewrite <- Ed in *. clear Ed kv d0.
  assert (Hfst : forall z, In z (map fst (dkeys d)) <-> 0 <= z < nr).
  { intros z; rewrite in_map_iff; split.
    - intros ([r c] & <- & Hi). apply Hk in Hi. cbn; lia.
    - intros Hz. exists (z, 0); split; [reflexivity|apply Hk; lia]. }
  assert (Hsnd : forall z, In z (map snd (dkeys d)) <-> 0 <= z < nc).
  { intros z; rewrite in_map_iff; split.
    - intros ([r c] & <- & Hi). apply Hk in Hi. cbn; lia.
    - intros Hz. exists (0, z); split; [reflexivity|apply Hk; lia]. }
  assert (Hmin : forall l, (exists z, In z l) -> exists m, zmin_list l = Ok m)
    by (intros [|a l] [z Hz]; [destruct Hz|cbn; eauto]).
  assert (Hmax : forall l, (exists z, In z l) -> exists m, zmax_list l = Ok m)
    by (intros [|a l] [z Hz]; [destruct Hz|cbn; eauto]).
  assert (E1 : exists z, In z (map fst (dkeys d))) by (exists 0; apply Hfst; lia).
  assert (E2 : exists z, In z (map snd (dkeys d))) by (exists 0; apply Hsnd; lia).
  destruct (Hmin _ E1) as (m1 & M1), (Hmin _ E2) as (m2 & M2),
           (Hmax _ E1) as (m3 & M3), (Hmax _ E2) as (m4 & M4).
  rewrite M1, M2, M3, M4. cbn [bind].
  apply zmin_list_spec in M1, M2. apply zmax_list_spec in M3, M4.
  destruct M1 as [I1 B1], M2 as [I2 B2], M3 as [I3 B3], M4 as [I4 B4].
  apply Hfst in I1, I3. apply Hsnd in I2, I4.
  specialize (B1 0 (proj2 (Hfst 0) ltac:(lia))). specialize (B2 0 (proj2 (Hsnd 0) ltac:(lia))).
  specialize (B3 (nr - 1) (proj2 (Hfst (nr - 1)) ltac:(lia))). specialize (B4 (nc - 1) (proj2 (Hsnd (nc - 1)) ltac:(lia))).
  assert (m1 = 0 /\ m2 = 0 /\ m3 = nr - 1 /\ m4 = nc - 1) as (-> & -> & -> & ->) by lia.
  cbn [Z.eqb andb negb].
  assert (Hinner : forall r, 0 <= r < nr -> exists row,
     mapM (fun c => dget_exn d (r, c)) (zrange (nc - 1 + 1)) = Ok row).
  { intros r Hr. assert (Hall : forall c, In c (zrange (nc - 1 + 1)) -> exists l, dget_exn d (r, c) = Ok l).
    { intros c Hc. apply In_zrange in Hc. assert (Hi : In (r, c) (dkeys d)) by (apply Hk; lia).
      apply dget_Some_key in Hi. destruct Hi as (l & Hl). exists l. now apply dget_exn_ok. }
    revert Hall. generalize (zrange (nc - 1 + 1)). induction l as [|c l IH]; cbn; intros Hall; [eauto|].
    destruct (Hall c (or_introl eq_refl)) as (v & ->). cbn.
    destruct IH as (vs & ->); [auto|]. cbn; eauto. }
  assert (Houter : exists rows, mapM (fun r => mapM (fun c => dget_exn d (r, c)) (zrange (nc - 1 + 1)))
     (zrange (nr - 1 + 1)) = Ok rows).
  { assert (Hall : forall r, In r (zrange (nr - 1 + 1)) -> 0 <= r < nr)
      by (intros r Hr; apply In_zrange in Hr; lia).
    revert Hall. generalize (zrange (nr - 1 + 1)). induction l as [|r l IH]; cbn; intros Hall; [eauto|].
    destruct (Hinner r) as (v & ->); [auto|]. cbn. destruct IH as (vs & ->); [auto|]. cbn; eauto. }
  destruct Houter as (rows & ->). destruct d; [destruct H00|eauto]. Qed.

End Proofs.

(** ** translation consistency on the whole lattice *)
Section Translation.
Context {L : Type}.

Lemma lc_shift_nat (rows : list (list L)) (d : coord) (n : nat) v w :
  locally_consistent rows -> is_unit d -> tile rows v = tile rows w ->
  tile rows (cadd v (Z.of_nat n * fst d, Z.of_nat n * snd d)) =
  tile rows (cadd w (Z.of_nat n * fst d, Z.of_nat n * snd d)).
Proof. intros Hc Hd He. induction n as [|n IH].
  - unfold cadd; cbn [fst snd]. rewrite !Z.mul_0_l, !Z.add_0_r.
    destruct v, w; exact He.
  - specialize (Hc _ _ d Hd IH).
    replace (cadd v (Z.of_nat (S n) * fst d, Z.of_nat (S n) * snd d))
      with (cadd (cadd v (Z.of_nat n * fst d, Z.of_nat n * snd d)) d)
      by (unfold cadd; cbn [fst snd]; f_equal; lia).
    replace (cadd w (Z.of_nat (S n) * fst d, Z.of_nat (S n) * snd d))
      with (cadd (cadd w (Z.of_nat n * fst d, Z.of_nat n * snd d)) d)
      by (unfold cadd; cbn [fst snd]; f_equal; lia).
    exact Hc. Qed.

Lemma lc_shift (rows : list (list L)) v w d :
  locally_consistent rows -> tile rows v = tile rows w ->
  tile rows (cadd v d) = tile rows (cadd w d).
Proof. intros Hc He.
  assert (HX : forall k v w, tile rows v = tile rows w -> tile rows (cadd v (k, 0)) = tile rows (cadd w (k, 0))).
  { intros k v' w' He'. destruct (Z_le_dec 0 k) as [Hk|Hk].
    - assert (Hs := lc_shift_nat rows (1, 0) (Z.to_nat k) v' w' Hc ltac:(unfold is_unit; auto) He').
      cbn [fst snd] in Hs. rewrite Z2Nat.id, Z.mul_1_r, Z.mul_0_r in Hs by lia. exact Hs.
    - assert (Hs := lc_shift_nat rows (-1, 0) (Z.to_nat (- k)) v' w' Hc ltac:(unfold is_unit; auto) He').
      cbn [fst snd] in Hs. rewrite Z2Nat.id, Z.mul_0_r in Hs by lia.
      replace (- k * -1) with k in Hs by lia. exact Hs. }
  assert (HY : forall k v w, tile rows v = tile rows w -> tile rows (cadd v (0, k)) = tile rows (cadd w (0, k))).
  { intros k v' w' He'. destruct (Z_le_dec 0 k) as [Hk|Hk].
    - assert (Hs := lc_shift_nat rows (0, 1) (Z.to_nat k) v' w' Hc ltac:(unfold is_unit; auto) He').
      cbn [fst snd] in Hs. rewrite Z2Nat.id, Z.mul_1_r, Z.mul_0_r in Hs by lia. exact Hs.
    - assert (Hs := lc_shift_nat rows (0, -1) (Z.to_nat (- k)) v' w' Hc ltac:(unfold is_unit; auto) He').
      cbn [fst snd] in Hs. rewrite Z2Nat.id, Z.mul_0_r in Hs by lia.
      replace (- k * -1) with k in Hs by lia. exact Hs. }
  destruct d as [dx dy].
  replace (cadd v (dx, dy)) with (cadd (cadd v (dx, 0)) (0, dy))
    by (unfold cadd; cbn [fst snd]; f_equal; lia).
  replace (cadd w (dx, dy)) with (cadd (cadd w (dx, 0)) (0, dy))
    by (unfold cadd; cbn [fst snd]; f_equal; lia).
  apply HY, HX, He. Qed.
End Translation.
