(** Proofs about the tensor file formats. *)
From Verif Require Import Base BaseLemmas Text TextLemmas Tensor TensorLemmas TensorIO TensorIOSpec.
Open Scope nat_scope.
Open Scope list_scope.
Open Scope res_scope.

Lemma nth_error_rev_last {A} (l : list A) x r : nth_error (rev (l ++ x :: r)) (length r) = Some x.
Proof. rewrite rev_app_distr. cbn. rewrite <- app_assoc. cbn.
  rewrite nth_error_app2 by (rewrite rev_length; lia). rewrite rev_length, Nat.sub_diag. reflexivity. Qed.

Lemma drop_last_app (l : list string) r : drop_last (length r) (l ++ r) = l.
Proof. unfold drop_last. rewrite app_length. replace (length l + length r - length r) with (length l) by lia.
  rewrite firstn_app, Nat.sub_diag, firstn_all. cbn. apply app_nil_r. Qed.

Lemma mapM_int_of toks ix : Forall2 (fun w i => parse_int w = Some (Z.of_nat i)) toks ix ->
  mapM int_of toks = Ok (map Z.of_nat ix).
Proof. induction 1 as [|w i toks ix Hw Hf IH]; cbn; [reflexivity|].
  unfold int_of at 1. rewrite Hw; cbn. rewrite IH; reflexivity. Qed.

Lemma in_indices_lex dims : StronglySorted lex_lt (indices dims).
Proof. induction dims as [|d ds IH]; cbn [indices]; [repeat constructor|].
  generalize 0 at 1; intros n. revert n. induction d as [|d IHd]; intros n; cbn; [constructor|].
  assert (H1 : StronglySorted lex_lt (map (cons n) (indices ds))).
  { clear - IH. induction IH as [|a l Hs IHs Hf]; cbn; constructor; [exact IHs|].
    apply Forall_map. eapply Forall_impl; [|exact Hf]. cbn; intros b Hb; right; auto. }
  specialize (IHd (S n)).
  assert (H2 : forall a b, In a (map (cons n) (indices ds)) ->
     In b (flat_map (fun i => map (cons i) (indices ds)) (seq (S n) d)) -> lex_lt a b).
  { intros a b Ha Hb. apply in_map_iff in Ha; destruct Ha as (x & <- & _).
    apply in_flat_map in Hb; destruct Hb as (i & Hi & Hb). apply in_seq in Hi.
    apply in_map_iff in Hb; destruct Hb as (y & <- & _). cbn; left; lia. }
  revert H1 H2. generalize (map (cons n) (indices ds)) as l1. intros l1 H1 H2.
  induction H1 as [|a l Hs IHs Hf]; cbn; [exact IHd|].
  constructor; [apply IHs; intros; apply H2; [right|]; assumption|].
  apply Forall_app; split; [exact Hf|]. apply Forall_forall. intros b Hb. apply H2; [left; reflexivity|exact Hb]. Qed.

Section P.
Context {R : Type}.
Variables (zero : R) (add : R -> R -> R).
Variable fmt : R -> string.
Variable parse : string -> option R.
Variable fmtc : R * R -> string.
Variable parsec : string -> option (R * R).
Hypothesis parse_fmt : forall x, parse (fmt x) = Some x.
Hypothesis fmt_token : forall x, token (fmt x) = true.
Hypothesis parsec_fmtc : forall z, parsec (fmtc z) = Some z.

Definition ten_wf (t : ten R) : Prop := match t with TReal t => twf t | TCplx t => twf t end.
Definition ten_dims (t : ten R) : list nat := match t with TReal t => tdims t | TCplx t => tdims t end.

Lemma read_1d_serialize t : ten_wf t ->
  read_1d parse parsec (serialize_1d fmt fmtc t) = Ok t.
Proof. destruct t as [[d v]|[d v]]; unfold ten_wf, twf; cbn [tdims tdata]; intros Hw.
  - unfold read_1d, serialize_1d; cbn [j_dtype j_dims j_data key bind dtype_name tdims tdata].
    replace (lower (strip_module "torch.float64")) with "float64"%string by reflexivity.
    cbn [check_dtype]. replace (check_dtype "float64") with (Ok tt) by reflexivity. cbn [bind].
    replace (contains "complex" "float64") with false by reflexivity.
    rewrite (mapM_Ok_map (float_of parse) (fun s => match parse s with Some x => x | None => zero end)).
    + cbn [bind]. rewrite map_map.
      replace (map _ v) with v.
      * unfold treshape. rewrite (proj2 (Nat.eqb_eq _ _) Hw). reflexivity.
      * rewrite <- (map_id v) at 1. apply map_ext. intros x; now rewrite parse_fmt.
    + intros s Hs. apply in_map_iff in Hs; destruct Hs as (x & <- & _).
      unfold float_of; now rewrite parse_fmt.
  - unfold read_1d, serialize_1d; cbn [j_dtype j_dims j_data key bind dtype_name tdims tdata].
    replace (lower (strip_module "torch.complex128")) with "complex128"%string by reflexivity.
    replace (check_dtype "complex128") with (Ok tt) by reflexivity. cbn [bind].
    replace (contains "complex" "complex128") with true by reflexivity.
    rewrite (mapM_Ok_map (complex_of parsec) (fun s => match parsec s with Some x => x | None => (zero, zero) end)).
    + cbn [bind]. rewrite map_map.
      replace (map _ v) with v.
      * unfold treshape. rewrite (proj2 (Nat.eqb_eq _ _) Hw). reflexivity.
      * rewrite <- (map_id v) at 1. apply map_ext. intros x; now rewrite parsec_fmtc.
    + intros s Hs. apply in_map_iff in Hs; destruct Hs as (x & <- & _).
      unfold complex_of; now rewrite parsec_fmtc. Qed.

(** ** legacy reader on described entries *)
Lemma entry_real_step dims X e ix v : twf X -> tdims X = dims -> lists_real parse dims e (ix, v) ->
  exists X', entry_real add parse (length dims) X e = Ok X' /\ twf X' /\ tdims X' = dims /\
  forall jx, tget X' jx = option_map (fun x => if eqb ix jx then add x v else x) (tget X jx).
Proof. intros Hw Hd (toks & s & rest & Hs & Hrest & Hf & Hp & Ha). cbn [fst snd] in *.
  assert (Hlen : length toks = length dims).
  { rewrite (Forall2_len _ _ _ Hf). symmetry; apply (Forall2_len _ _ _ Ha). }
  unfold entry_real. rewrite Hs.
  assert (Hk : (if Nat.eqb (length (toks ++ s :: rest)) (length dims + 1) then 1 else 2) = S (length rest)).
  { rewrite app_length; cbn. destruct rest as [|r [|r' rest]]; cbn in *.
    - rewrite (proj2 (Nat.eqb_eq _ _)); lia.
    - rewrite (proj2 (Nat.eqb_neq _ _)); lia.
    - lia. }
  rewrite Hk. change (S (length rest)) with (length (s :: rest)) at 1. rewrite drop_last_app.
  rewrite (mapM_int_of _ _ Hf). cbn [bind]. subst dims.
  rewrite (norm_indices_nat _ _ Ha). cbn [bind].
  unfold tok. replace (S (length rest) - 1) with (length rest) by lia.
  rewrite nth_error_rev_last. cbn [bind]. unfold float_of; rewrite Hp. cbn [bind].
  destruct (tupdate_ok X (map Z.of_nat ix) (fun x => add x v) ix (norm_indices_nat _ _ Ha)) as [X' HX'].
  exists X'; split; [exact HX'|].
  destruct (tupdate_spec _ _ _ _ Hw HX') as (p & Hnp & Hw' & Hd' & Hg).
  rewrite (norm_indices_nat _ _ Ha) in Hnp; inv Hnp. split; [exact Hw'|]. split; [exact Hd'|].
  intros jx. rewrite Hg. destruct (tget X jx) as [x|] eqn:Ex; [|reflexivity]. cbn. f_equal.
  assert (Hl : length p = length jx).
  { rewrite (in_range_length _ _ Ha), (in_range_length _ _ (tget_range _ _ _ Hw Ex)); reflexivity. }
  destruct (is_prefix p jx) eqn:E1; destruct (eqb p jx) eqn:E2; try reflexivity.
  - apply (is_prefix_full p jx Hl) in E1. apply (eqb_false p jx) in E2. contradiction.
  - apply (eqb_true p jx) in E2. apply (is_prefix_full p jx Hl) in E2. congruence. Qed.

Lemma entries_real dims entries es X : twf X -> tdims X = dims ->
  Forall2 (lists_real parse dims) entries es ->
  exists X', foldM (entry_real add parse (length dims)) entries X = Ok X' /\ twf X' /\ tdims X' = dims /\
  forall jx, tget X' jx = option_map (fun x => fold_left add (values_at es jx) x) (tget X jx).
Proof. intros Hw Hd Hf. revert X Hw Hd. induction Hf as [|e [ix v] entries es He Hf IH]; intros X Hw Hd.
  - exists X; cbn. split; [reflexivity|]. split; [exact Hw|]. split; [exact Hd|].
    intros jx; destruct (tget X jx); reflexivity.
  - destruct (entry_real_step dims X e ix v Hw Hd He) as (X1 & H1 & Hw1 & Hd1 & Hg1).
    destruct (IH X1 Hw1 Hd1) as (X' & H' & Hw' & Hd' & Hg').
    exists X'. cbn. rewrite H1; cbn. split; [exact H'|]. split; [exact Hw'|]. split; [exact Hd'|].
    intros jx. rewrite Hg', Hg1. destruct (tget X jx) as [x|]; [|reflexivity]. cbn. f_equal.
    unfold values_at; cbn. destruct (eqb ix jx); reflexivity. Qed.

Lemma entry_cplx_step dims X e ix v : twf X -> tdims X = dims -> lists_cplx parse dims e (ix, v) ->
  exists X', entry_cplx parse X e = Ok X' /\ twf X' /\ tdims X' = dims /\
  forall jx, tget X' jx = option_map (fun x => if eqb ix jx then v else x) (tget X jx).
Proof. intros Hw Hd (toks & s & s' & Hs & Hf & Hp & Hp' & Ha). cbn [fst snd] in *.
  assert (Ht2 : tok (toks ++ [s; s']) 2 = Ok s).
  { unfold tok. replace (2 - 1) with (length [s']) by reflexivity. now rewrite nth_error_rev_last. }
  assert (Ht1 : tok (toks ++ [s; s']) 1 = Ok s').
  { unfold tok. replace (1 - 1) with (length (@nil string)) by reflexivity.
    replace (toks ++ [s; s']) with ((toks ++ [s]) ++ s' :: []) by now rewrite <- app_assoc.
    now rewrite nth_error_rev_last. }
  assert (Hdl : drop_last 2 (toks ++ [s; s']) = toks) by exact (drop_last_app toks [s; s']).
  unfold entry_cplx. rewrite Hs, Ht2. cbn [bind]. unfold float_of at 1; rewrite Hp; cbn [bind].
  rewrite Ht1. cbn [bind]. unfold float_of at 1; rewrite Hp'; cbn [bind].
  rewrite Hdl, (mapM_int_of _ _ Hf). cbn [bind]. subst dims.
  destruct (tupdate_ok X (map Z.of_nat ix) (fun _ => (fst v, snd v)) ix (norm_indices_nat _ _ Ha)) as [X' HX'].
  exists X'; split; [exact HX'|].
  destruct (tupdate_spec _ _ _ _ Hw HX') as (p & Hnp & Hw' & Hd' & Hg).
  rewrite (norm_indices_nat _ _ Ha) in Hnp; inv Hnp. split; [exact Hw'|]. split; [exact Hd'|].
  intros jx. rewrite Hg. destruct (tget X jx) as [x|] eqn:Ex; [|reflexivity]. cbn. f_equal.
  assert (Hl : length p = length jx).
  { rewrite (in_range_length _ _ Ha), (in_range_length _ _ (tget_range _ _ _ Hw Ex)); reflexivity. }
  destruct (is_prefix p jx) eqn:E1; destruct (eqb p jx) eqn:E2.
  - now destruct v.
  - apply (is_prefix_full p jx Hl) in E1. apply (eqb_false p jx) in E2. contradiction.
  - apply (eqb_true p jx) in E2. apply (is_prefix_full p jx Hl) in E2. congruence.
  - reflexivity. Qed.

Lemma entries_cplx dims entries es X : twf X -> tdims X = dims ->
  Forall2 (lists_cplx parse dims) entries es ->
  exists X', foldM (entry_cplx parse) entries X = Ok X' /\ twf X' /\ tdims X' = dims /\
  forall jx, tget X' jx = option_map (fun x => last (values_at es jx) x) (tget X jx).
Proof. intros Hw Hd Hf. revert X Hw Hd. induction Hf as [|e [ix v] entries es He Hf IH]; intros X Hw Hd.
  - exists X; cbn. split; [reflexivity|]. split; [exact Hw|]. split; [exact Hd|].
    intros jx; destruct (tget X jx); reflexivity.
  - destruct (entry_cplx_step dims X e ix v Hw Hd He) as (X1 & H1 & Hw1 & Hd1 & Hg1).
    destruct (IH X1 Hw1 Hd1) as (X' & H' & Hw' & Hd' & Hg').
    exists X'. cbn. rewrite H1; cbn. split; [exact H'|]. split; [exact Hw'|]. split; [exact Hd'|].
    intros jx. rewrite Hg', Hg1. destruct (tget X jx) as [x|]; [|reflexivity]. cbn. f_equal.
    unfold values_at; cbn [filter fst]. destruct (eqb ix jx); [|reflexivity].
    cbn [map snd]. destruct (map snd (filter (fun e0 => eqb (fst e0) jx) es)) as [|w ws]; [reflexivity|].
    clear. cbn [last]. revert w. induction ws as [|w' ws IH]; intros w; [reflexivity|]. apply IH. Qed.

(** ** the whole reader *)
Definition jlegacy (dt : option string) (dims : list nat) (entries : list string) : jtensor :=
  mkJ None dt (Some dims) None None None None (Some entries).

Lemma read_legacy_real j dims entries es :
  (j_dtype j = None \/ exists s, j_dtype j = Some s /\ lower s = "float64"%string) ->
  (j_dims j = Some dims \/
   (j_dims j = None /\ exists p a, j_phys j = Some p /\ j_aux j = Some a /\ dims = [p; a; a; a; a])) ->
  j_entries j = Some entries ->
  Forall2 (lists_real parse dims) entries es ->
  exists t, read_legacy zero add parse j = Ok (TReal t) /\ twf t /\ tdims t = dims /\
  forall ix, addresses dims ix -> tget t ix = Some (fold_left add (values_at es ix) zero).
Proof. intros Hdt Hdims He Hf. unfold read_legacy.
  replace (match j_dtype j with Some d => lower d | None => "float64"%string end) with "float64"%string
    by (destruct Hdt as [->|(s & -> & ->)]; reflexivity).
  replace (check_dtype "float64") with (Ok tt) by reflexivity. cbn [bind].
  replace (match j_dims j with Some dims0 => Ok dims0 | None => _ end) with (Ok dims)
    by (destruct Hdims as [->|(-> & p & a & -> & -> & ->)]; reflexivity).
  cbn [bind]. rewrite He. cbn [key bind].
  replace (eqb "float64"%string "complex128"%string) with false by reflexivity.
  destruct (entries_real dims entries es (tzeros zero dims) (twf_tzeros _ _) eq_refl Hf)
    as (X & HX & Hw & Hd & Hg).
  rewrite HX. cbn [bind]. exists X; split; [reflexivity|]. split; [exact Hw|]. split; [exact Hd|].
  intros ix Ha. rewrite Hg, tget_tzeros by exact Ha. reflexivity. Qed.

Lemma read_legacy_cplx j dims entries es :
  (exists s, j_dtype j = Some s /\ lower s = "complex128"%string) ->
  (j_dims j = Some dims \/
   (j_dims j = None /\ exists p a, j_phys j = Some p /\ j_aux j = Some a /\ dims = [p; a; a; a; a])) ->
  j_entries j = Some entries ->
  Forall2 (lists_cplx parse dims) entries es ->
  exists t, read_legacy zero add parse j = Ok (TCplx t) /\ twf t /\ tdims t = dims /\
  forall ix, addresses dims ix -> tget t ix = Some (last (values_at es ix) (zero, zero)).
Proof. intros (s & Hs & Hl) Hdims He Hf. unfold read_legacy. rewrite Hs, Hl.
  replace (check_dtype "complex128") with (Ok tt) by reflexivity. cbn [bind].
  replace (match j_dims j with Some dims0 => Ok dims0 | None => _ end) with (Ok dims)
    by (destruct Hdims as [->|(-> & p & a & -> & -> & ->)]; reflexivity).
  cbn [bind]. rewrite He. cbn [key bind].
  replace (eqb "complex128"%string "complex128"%string) with true by reflexivity.
  destruct (entries_cplx dims entries es (tzeros (zero, zero) dims) (twf_tzeros _ _) eq_refl Hf)
    as (X & HX & Hw & Hd & Hg).
  rewrite HX. cbn [bind]. exists X; split; [reflexivity|]. split; [exact Hw|]. split; [exact Hd|].
  intros ix Ha. rewrite Hg, tget_tzeros by exact Ha. reflexivity. Qed.

Lemma values_at_nodup {V} (es : list (list nat * V)) ix v :
  NoDup (map fst es) -> In (ix, v) es -> values_at es ix = [v].
Proof. unfold values_at. induction es as [|[i w] es IH]; cbn; intros Hn Hi; [contradiction|].
  apply NoDup_cons_iff in Hn; destruct Hn as [Hi' Hn].
  assert (Hno : ~ In i (map fst es) -> filter (fun e => eqb (fst e) i) es = []).
  { clear. induction es as [|[j w] es IH]; cbn; intros Hx; [reflexivity|].
    destruct (eqb j i) eqn:E; [apply (eqb_true j i) in E; exfalso; apply Hx; auto|].
    apply IH; intros Hy; apply Hx; auto. }
  destruct Hi as [He|Hi].
  - inv He. replace (eqb ix ix) with true by (symmetry; apply (eqb_true ix ix); reflexivity).
    cbn. rewrite Hno by exact Hi'. reflexivity.
  - destruct (eqb i ix) eqn:E; [|apply IH; assumption].
    apply (eqb_true i ix) in E; subst i. exfalso; apply Hi'.
    change ix with (fst (ix, v)). apply in_map; exact Hi. Qed.

Lemma values_at_none {V} (es : list (list nat * V)) ix :
  ~ In ix (map fst es) -> values_at es ix = [].
Proof. unfold values_at. induction es as [|[j w] es IH]; cbn; intros Hx; [reflexivity|].
  destruct (eqb j ix) eqn:E; [apply (eqb_true j ix) in E; exfalso; apply Hx; auto|].
  apply IH; intros Hy; apply Hx; auto. Qed.

Lemma values_at_perm {V} (es es' : list (list nat * V)) ix :
  NoDup (map fst es) -> Permutation es es' -> values_at es ix = values_at es' ix.
Proof. intros Hn Hp.
  assert (Hn' : NoDup (map fst es')) by (eapply Permutation_NoDup; [apply Permutation_map; exact Hp|exact Hn]).
  destruct (in_dec eq_dec ix (map fst es)) as [Hi|Hi].
  - apply in_map_iff in Hi; destruct Hi as ([i v] & He & Hi). cbn in He; subst i.
    rewrite (values_at_nodup es ix v Hn Hi).
    rewrite (values_at_nodup es' ix v Hn'); [reflexivity|]. eapply Permutation_in; eassumption.
  - rewrite values_at_none by exact Hi. rewrite values_at_none; [reflexivity|].
    intros Hx; apply Hi. eapply Permutation_in; [symmetry; apply Permutation_map; exact Hp|exact Hx]. Qed.

(** ** round trip of the legacy format *)
Lemma lists_real_line dims ix v : addresses dims ix ->
  lists_real parse dims (line_real fmt ix v) (ix, v).
Proof. intros Ha. exists (map print_nat ix), (fmt v), []. cbn [fst snd]. split; [|split; [cbn; lia|split; [|split; [apply parse_fmt|exact Ha]]]].
  - unfold line_real. apply split_ws_join; [|apply fmt_token].
    clear. induction ix as [|i ix IH]; [reflexivity|]. cbn [map forallb]. now rewrite token_print.
  - clear. induction ix as [|i ix IH]; cbn [map]; constructor; [apply parse_print|exact IH]. Qed.

Lemma lists_cplx_line dims ix v : addresses dims ix ->
  lists_cplx parse dims (line_cplx fmt ix v) (ix, v).
Proof. intros Ha. exists (map print_nat ix), (fmt (fst v)), (fmt (snd v)). cbn [fst snd].
  split; [|split; [|split; [apply parse_fmt|split; [apply parse_fmt|exact Ha]]]].
  - unfold line_cplx. apply split_ws_join2; [|apply fmt_token|apply fmt_token].
    clear. induction ix as [|i ix IH]; [reflexivity|]. cbn [map forallb]. now rewrite token_print.
  - clear. induction ix as [|i ix IH]; cbn [map]; constructor; [apply parse_print|exact IH]. Qed.

Lemma telts_described {V} (dims : list nat) (line : list nat -> V -> string) (P : string -> list nat * V -> Prop)
  (es : list (list nat * V)) :
  (forall ix v, addresses dims ix -> P (line ix v) (ix, v)) ->
  (forall ix v, In (ix, v) es -> addresses dims ix) ->
  Forall2 P (map (fun e => line (fst e) (snd e)) es) es.
Proof. intros HP Ha. induction es as [|[ix v] es IH]; cbn [map]; constructor; cbn [fst snd].
  - apply HP. eapply Ha; left; reflexivity.
  - apply IH. intros i w Hi; eapply Ha; right; exact Hi. Qed.

Lemma telts_addresses {V} (t : tensor V) ix v : twf t -> In (ix, v) (telts t) -> addresses (tdims t) ix.
Proof. intros Hw Hi. apply In_indices. rewrite <- telts_keys by exact Hw.
  unfold dkeys. change ix with (fst (ix, v)). apply in_map; exact Hi. Qed.

Hypothesis add_zero_l : forall x, add zero x = x.

Lemma read_legacy_serialize t : ten_wf t ->
  read_legacy zero add parse (serialize_legacy fmt t) = Ok t.
Proof. destruct t as [t|t]; intros Hw; unfold ten_wf in Hw.
  - destruct (read_legacy_real (serialize_legacy fmt (TReal t)) (tdims t)
      (map (fun e => line_real fmt (fst e) (snd e)) (telts t)) (telts t)) as (t' & Ht & Hw' & Hd & Hg).
    + right. exists "float64"%string; split; reflexivity.
    + left; reflexivity.
    + reflexivity.
    + apply (telts_described (tdims t)); [apply lists_real_line|]. intros ix v; apply telts_addresses; exact Hw.
    + rewrite Ht. f_equal. f_equal. apply tensor_ext; [exact Hw'|exact Hw|exact Hd|].
      intros ix Hr. rewrite Hd in Hr. rewrite Hg by exact Hr.
      destruct (tget_Some t ix Hw Hr) as [v Hv]. rewrite Hv.
      rewrite (values_at_nodup (telts t) ix v).
      * cbn. now rewrite add_zero_l.
      * change (NoDup (dkeys (telts t))). rewrite telts_keys by exact Hw. apply NoDup_indices.
      * apply dget_In; exact Hv.
  - destruct (read_legacy_cplx (serialize_legacy fmt (TCplx t)) (tdims t)
      (map (fun e => line_cplx fmt (fst e) (snd e)) (telts t)) (telts t)) as (t' & Ht & Hw' & Hd & Hg).
    + exists "complex128"%string; split; reflexivity.
    + left; reflexivity.
    + reflexivity.
    + apply (telts_described (tdims t)); [apply lists_cplx_line|]. intros ix v; apply telts_addresses; exact Hw.
    + rewrite Ht. f_equal. f_equal. apply tensor_ext; [exact Hw'|exact Hw|exact Hd|].
      intros ix Hr. rewrite Hd in Hr. rewrite Hg by exact Hr.
      destruct (tget_Some t ix Hw Hr) as [v Hv]. rewrite Hv.
      rewrite (values_at_nodup (telts t) ix v).
      * reflexivity.
      * change (NoDup (dkeys (telts t))). rewrite telts_keys by exact Hw. apply NoDup_indices.
      * apply dget_In; exact Hv. Qed.
End P.
