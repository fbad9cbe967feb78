(** Proofs about sparse basis tensors (serialize_basis_t / read_basis_t). *)
From Verif Require Import Base BaseLemmas Text TextLemmas Tensor TensorLemmas TensorIO TensorIOSpec TensorIOProofs.
Open Scope nat_scope.
Open Scope list_scope.
Open Scope res_scope.

Section P.
Context {R : Type}.
Variables (zero : R) (add : R -> R -> R).
Variable fmt : R -> string.
Variable parse : string -> option R.
Variable is_zero : R -> bool.
Hypothesis parse_fmt : forall x, parse (fmt x) = Some x.
Hypothesis fmt_token : forall x, token (fmt x) = true.
Hypothesis is_zero_spec : forall x, is_zero x = true <-> x = zero.

Lemma firstn_exact {A} (l r : list A) n : n = length l -> firstn n (l ++ r) = l.
Proof. intros ->. rewrite firstn_app, Nat.sub_diag, firstn_all. cbn. apply app_nil_r. Qed.

Lemma forallb_no_ws_print ix : forallb no_ws (map print_nat ix) = true.
Proof. induction ix as [|i ix IH]; [reflexivity|]. cbn [map forallb].
  rewrite token_no_ws by apply token_print. exact IH. Qed.

Lemma Forall2_print ix :
  Forall2 (fun w i => parse_int w = Some (Z.of_nat i)) (map print_nat ix) ix.
Proof. induction ix as [|i ix IH]; cbn [map]; constructor; [apply parse_print|exact IH]. Qed.

(** assignment of one element *)
Lemma tupdate_assign {V} (X : tensor V) dims ix (v : V) : twf X -> tdims X = dims -> addresses dims ix ->
  exists X', tupdate X (map Z.of_nat ix) (fun _ => v) = Ok X' /\ twf X' /\ tdims X' = dims /\
  forall jx, tget X' jx = option_map (fun x => if eqb ix jx then v else x) (tget X jx).
Proof. intros Hw Hd Ha. subst dims.
  destruct (tupdate_ok X (map Z.of_nat ix) (fun _ => v) ix (norm_indices_nat _ _ Ha)) as [X' HX'].
  exists X'; split; [exact HX'|].
  destruct (tupdate_spec _ _ _ _ Hw HX') as (p & Hnp & Hw' & Hd' & Hg).
  rewrite (norm_indices_nat _ _ Ha) in Hnp; inv Hnp. split; [exact Hw'|]. split; [exact Hd'|].
  intros jx. rewrite Hg. destruct (tget X jx) as [x|] eqn:Ex; [|reflexivity]. cbn. f_equal.
  assert (Hl : length p = length jx).
  { rewrite (in_range_length _ _ Ha), (in_range_length _ _ (tget_range _ _ _ Hw Ex)); reflexivity. }
  destruct (is_prefix p jx) eqn:E1; destruct (eqb p jx) eqn:E2; try reflexivity.
  - apply (is_prefix_full p jx Hl) in E1. apply (eqb_false p jx) in E2. contradiction.
  - apply (eqb_true p jx) in E2. apply (is_prefix_full p jx Hl) in E2. congruence. Qed.

Lemma basis_real_line X dims ix v : twf X -> tdims X = dims -> dims <> [] -> addresses dims ix ->
  basis_real parse (length dims) X (line_real fmt ix v) = tupdate X (map Z.of_nat ix) (fun _ => v).
Proof. intros Hw Hd Hne Ha. assert (Hl := Forall2_len _ _ _ Ha).
  assert (Hix : map print_nat ix <> []) by (destruct ix; [destruct dims; [congruence|discriminate]|discriminate]).
  unfold basis_real, line_real. cbn [append].
  rewrite split_sp_join by (exact Hix || apply forallb_no_ws_print).
  rewrite split_sp_one by (apply token_no_ws, fmt_token).
  rewrite firstn_exact by now rewrite map_length.
  rewrite (mapM_int_of _ _ (Forall2_print ix)). cbn [bind].
  unfold tok_at. rewrite nth_error_app2 by (rewrite map_length; lia).
  rewrite map_length, Hl, Nat.sub_diag. cbn [nth_error bind]. unfold float_of; rewrite parse_fmt. reflexivity. Qed.

Lemma basis_cplx_line X dims ix v : twf X -> tdims X = dims -> dims <> [] -> addresses dims ix ->
  basis_cplx parse (length dims) X (line_cplx fmt ix v) = tupdate X (map Z.of_nat ix) (fun _ => v).
Proof. intros Hw Hd Hne Ha. assert (Hl := Forall2_len _ _ _ Ha).
  assert (Hix : map print_nat ix <> []) by (destruct ix; [destruct dims; [congruence|discriminate]|discriminate]).
  unfold basis_cplx, line_cplx. cbn [append].
  rewrite split_sp_join by (exact Hix || apply forallb_no_ws_print).
  rewrite split_sp_cons by (apply token_no_ws, fmt_token).
  rewrite split_sp_one by (apply token_no_ws, fmt_token).
  rewrite firstn_exact by now rewrite map_length.
  rewrite (mapM_int_of _ _ (Forall2_print ix)). cbn [bind].
  unfold tok_at. rewrite nth_error_app2 by (rewrite map_length; lia).
  rewrite map_length, Hl, Nat.sub_diag. cbn [nth_error bind]. unfold float_of; rewrite !parse_fmt. cbn [bind].
  rewrite nth_error_app2 by (rewrite map_length; lia). rewrite map_length.
  replace (length ix + 1 - length ix) with 1 by lia. cbn [nth_error bind]. rewrite parse_fmt. cbn [bind].
  now destruct v. Qed.

Lemma assign_all {V} (body : tensor V -> string -> res (tensor V)) (line : list nat -> V -> string) dims es X :
  (forall X ix v, twf X -> tdims X = dims -> addresses dims ix ->
     body X (line ix v) = tupdate X (map Z.of_nat ix) (fun _ => v)) ->
  (forall ix v, In (ix, v) es -> addresses dims ix) ->
  twf X -> tdims X = dims ->
  exists X', foldM body (map (fun e => line (fst e) (snd e)) es) X = Ok X' /\ twf X' /\ tdims X' = dims /\
  forall jx, tget X' jx = option_map (fun x => last (values_at es jx) x) (tget X jx).
Proof. intros Hb. revert X. induction es as [|[ix v] es IH]; intros X Ha Hw Hd.
  - exists X; cbn. split; [reflexivity|]. split; [exact Hw|]. split; [exact Hd|].
    intros jx; destruct (tget X jx); reflexivity.
  - assert (Haix : addresses dims ix) by (eapply Ha; left; reflexivity).
    destruct (tupdate_assign X dims ix v Hw Hd Haix) as (X1 & H1 & Hw1 & Hd1 & Hg1).
    destruct (IH X1 (fun i w Hi => Ha i w (or_intror Hi)) Hw1 Hd1) as (X' & H' & Hw' & Hd' & Hg').
    exists X'. cbn [map foldM fst snd]. rewrite Hb by assumption. rewrite H1; cbn [bind].
    split; [exact H'|]. split; [exact Hw'|]. split; [exact Hd'|].
    intros jx. rewrite Hg', Hg1. destruct (tget X jx) as [x|]; [|reflexivity]. cbn [option_map]. f_equal.
    unfold values_at; cbn [filter fst]. destruct (eqb ix jx); [|reflexivity].
    cbn [map snd]. destruct (map snd (filter (fun e0 => eqb (fst e0) jx) es)) as [|w ws]; [reflexivity|].
    clear. cbn [last]. revert w. induction ws as [|w' ws IH]; intros w; [reflexivity|]. apply IH. Qed.

Lemma filter_values {V} (t : tensor V) (nz : V -> bool) ix v : twf t -> tget t ix = Some v ->
  values_at (filter (fun e => nz (snd e)) (telts t)) ix = if nz v then [v] else [].
Proof. intros Hw Hg.
  assert (Hn : NoDup (map fst (telts t))).
  { change (NoDup (dkeys (telts t))). rewrite telts_keys by exact Hw. apply NoDup_indices. }
  assert (Hsub : NoDup (map fst (filter (fun e => nz (snd e)) (telts t)))).
  { revert Hn. induction (telts t) as [|[i w] l IH]; cbn; intros Hn; [constructor|].
    apply NoDup_cons_iff in Hn; destruct Hn as [Hi Hn].
    destruct (nz w); cbn; [|auto]. constructor; [|auto]. intros Hx; apply Hi.
    apply in_map_iff in Hx; destruct Hx as (e & He & Hx). apply filter_In in Hx; destruct Hx as [Hx _].
    apply in_map_iff; eauto. }
  destruct (nz v) eqn:E.
  - apply values_at_nodup; [exact Hsub|]. apply filter_In; split; [apply dget_In; exact Hg|exact E].
  - apply values_at_none. intros Hx. apply in_map_iff in Hx; destruct Hx as ([i w] & He & Hx).
    cbn in He; subst i. apply filter_In in Hx; destruct Hx as [Hx Hnz]. cbn in Hnz.
    assert (Hgw : tget t ix = Some w) by (apply In_dget; assumption). congruence. Qed.

Lemma read_basis_serialize t : ten_wf t -> ten_dims t <> [] ->
  read_basis zero parse (serialize_basis fmt is_zero t) = Ok t.
Proof. destruct t as [t|t]; unfold ten_wf, ten_dims; intros Hw Hne.
  - unfold read_basis, serialize_basis; cbn [j_dtype j_dims j_entries key bind].
    replace (eqb "float64"%string "complex128"%string) with false by reflexivity.
    replace (eqb "float64"%string "float64"%string) with true by reflexivity.
    destruct (assign_all (basis_real parse (length (tdims t))) (line_real fmt) (tdims t)
       (filter (fun e => negb (is_zero (snd e))) (telts t)) (tzeros zero (tdims t)))
      as (X & HX & Hw' & Hd & Hg).
    + intros X ix v HwX HdX Ha. apply basis_real_line; assumption.
    + intros ix v Hi. apply filter_In in Hi; destruct Hi as [Hi _]. eapply telts_addresses; eassumption.
    + apply twf_tzeros.
    + reflexivity.
    + rewrite HX; cbn [bind]. f_equal; f_equal. apply tensor_ext; [exact Hw'|exact Hw|exact Hd|].
      intros ix Hr. rewrite Hd in Hr. rewrite Hg, tget_tzeros by exact Hr. cbn [option_map].
      destruct (tget_Some t ix Hw Hr) as [v Hv]. rewrite Hv. f_equal.
      rewrite (filter_values t (fun v => negb (is_zero v)) ix v Hw Hv).
      destruct (is_zero v) eqn:E; cbn; [|reflexivity]. symmetry; apply is_zero_spec; exact E.
  - unfold read_basis, serialize_basis; cbn [j_dtype j_dims j_entries key bind].
    replace (eqb "complex128"%string "complex128"%string) with true by reflexivity.
    destruct (assign_all (basis_cplx parse (length (tdims t))) (line_cplx fmt) (tdims t)
       (filter (fun e => negb (is_zero (fst (snd e)) && is_zero (snd (snd e)))) (telts t)) (tzeros (zero, zero) (tdims t)))
      as (X & HX & Hw' & Hd & Hg).
    + intros X ix v HwX HdX Ha. apply basis_cplx_line; assumption.
    + intros ix v Hi. apply filter_In in Hi; destruct Hi as [Hi _]. eapply telts_addresses; eassumption.
    + apply twf_tzeros.
    + reflexivity.
    + rewrite HX; cbn [bind]. f_equal; f_equal. apply tensor_ext; [exact Hw'|exact Hw|exact Hd|].
      intros ix Hr. rewrite Hd in Hr. rewrite Hg, tget_tzeros by exact Hr. cbn [option_map].
      destruct (tget_Some t ix Hw Hr) as [v Hv]. rewrite Hv. f_equal.
      rewrite (filter_values t (fun v => negb (is_zero (fst v) && is_zero (snd v))) ix v Hw Hv).
      destruct (is_zero (fst v)) eqn:E1; cbn; [|reflexivity].
      destruct (is_zero (snd v)) eqn:E2; cbn; [|reflexivity].
      apply is_zero_spec in E1, E2. destruct v; cbn in *; congruence. Qed.

(** a scalar tensor is written as " v", whose first token is empty *)
Lemma read_basis_scalar x : is_zero x = false -> parse ""%string = None ->
  read_basis zero parse (serialize_basis fmt is_zero (TReal (mkT [] [x]))) = Err ValueError.
Proof. intros Hx Hp. unfold read_basis, serialize_basis, telts; cbn [tdims tdata indices combine filter snd].
  rewrite Hx. cbn [negb map fst snd j_dtype j_dims j_entries key bind].
  replace (eqb "float64"%string "complex128"%string) with false by reflexivity.
  replace (eqb "float64"%string "float64"%string) with true by reflexivity.
  cbn [foldM]. unfold basis_real, line_real. cbn [map join_sp append].
  unfold split_sp. cbn [split_sp_aux]. destruct (split_sp_aux (fmt x)) as [w r].
  cbn [Ascii.eqb]. cbn. unfold float_of. rewrite Hp. reflexivity. Qed.
End P.

(** the list of lines of the legacy writer *)
Lemma lines_row_major : forall {R} (fmt : R -> string), (forall x, token (fmt x) = true) ->
  forall t : tensor R, twf t ->
  exists ixs, j_entries (serialize_legacy fmt (TReal t)) =
      Some (map (fun e => line_real fmt (fst e) (snd e)) (combine ixs (tdata t))) /\
    (forall ix v, split_ws (line_real fmt ix v) = map print_nat ix ++ [fmt v]) /\
    length ixs = length (tdata t) /\
    StronglySorted lex_lt ixs /\ (forall ix, In ix ixs <-> addresses (tdims t) ix).
Proof. intros R fmt Hf t Hw. exists (indices (tdims t)). split; [reflexivity|]. split; [|split; [|split]].
  - intros ix v. unfold line_real. apply split_ws_join; [|apply Hf].
    clear. induction ix as [|i ix IH]; [reflexivity|]. cbn [map forallb]. now rewrite token_print.
  - rewrite length_indices. symmetry; exact Hw.
  - apply in_indices_lex.
  - intros ix. apply In_indices. Qed.

Lemma Forall2_perm {A B} (P : A -> B -> Prop) l1 l1' l2 :
  Forall2 P l1 l2 -> Permutation l1 l1' -> exists l2', Forall2 P l1' l2' /\ Permutation l2 l2'.
Proof. intros Hf Hp. revert l2 Hf. induction Hp as [|x l l' Hp IH|x y l|l l' l'' Hp1 IH1 Hp2 IH2]; intros l2 Hf.
  - inv Hf. exists []; split; constructor.
  - inversion Hf as [|a b la lb Hab Hf']; subst. destruct (IH _ Hf') as (l2' & Hf2 & Hp2).
    exists (b :: l2'); split; constructor; assumption.
  - inversion Hf as [|a b la lb Hab Hf']; subst. inversion Hf' as [|a' b' la' lb' Hab' Hf'']; subst.
    exists (b' :: b :: lb'); split; [repeat constructor; assumption|apply perm_swap].
  - destruct (IH1 _ Hf) as (l2' & Hf2 & Hp3). destruct (IH2 _ Hf2) as (l2'' & Hf3 & Hp4).
    exists l2''; split; [exact Hf3|etransitivity; eassumption]. Qed.

Lemma order_irrelevant : forall {R} (zero : R) (add : R -> R -> R) (parse : string -> option R)
         (j : jtensor) (dims : list nat) (entries entries' : list string),
  (j_dims j = Some dims \/
   (j_dims j = None /\ exists p a, j_phys j = Some p /\ j_aux j = Some a /\ dims = [p; a; a; a; a])) ->
  ((j_dtype j = None \/ exists s, j_dtype j = Some s /\ lower s = "float64"%string) /\
   (exists es, Forall2 (lists_real parse dims) entries es /\ NoDup (map fst es))
   \/ (exists s, j_dtype j = Some s /\ lower s = "complex128"%string) /\
   (exists es, Forall2 (lists_cplx parse dims) entries es /\ NoDup (map fst es))) ->
  Permutation entries entries' ->
  exists t, ten_wf t /\ ten_dims t = dims /\
    read_legacy zero add parse (mkJ (j_format j) (j_dtype j) (j_dims j) (j_phys j) (j_aux j) (j_data j) (j_num j) (Some entries)) = Ok t /\
    read_legacy zero add parse (mkJ (j_format j) (j_dtype j) (j_dims j) (j_phys j) (j_aux j) (j_data j) (j_num j) (Some entries')) = Ok t.
Proof. intros R zero add parse j dims entries entries' Hd Hc Hp. destruct Hc as [(Hdt & es & Hf & Hn)|(Hdt & es & Hf & Hn)].
  - destruct (Forall2_perm _ _ _ _ Hf Hp) as (es' & Hf' & Hpe).
    destruct (read_legacy_real zero add parse (mkJ (j_format j) (j_dtype j) (j_dims j) (j_phys j) (j_aux j) (j_data j) (j_num j) (Some entries))
      dims entries es Hdt Hd eq_refl Hf) as (t & Ht & Hw & Hdt' & Hg).
    destruct (read_legacy_real zero add parse (mkJ (j_format j) (j_dtype j) (j_dims j) (j_phys j) (j_aux j) (j_data j) (j_num j) (Some entries'))
      dims entries' es' Hdt Hd eq_refl Hf') as (t2 & Ht2 & Hw2 & Hdt2 & Hg2).
    exists (TReal t). split; [exact Hw|]. split; [exact Hdt'|]. split; [exact Ht|].
    rewrite Ht2. f_equal; f_equal. apply tensor_ext; [exact Hw2|exact Hw|congruence|].
    intros ix Hr. rewrite Hdt2 in Hr. rewrite Hg, Hg2 by exact Hr. f_equal. f_equal.
    symmetry; apply values_at_perm; assumption.
  - destruct (Forall2_perm _ _ _ _ Hf Hp) as (es' & Hf' & Hpe).
    destruct (read_legacy_cplx zero add parse (mkJ (j_format j) (j_dtype j) (j_dims j) (j_phys j) (j_aux j) (j_data j) (j_num j) (Some entries))
      dims entries es Hdt Hd eq_refl Hf) as (t & Ht & Hw & Hdt' & Hg).
    destruct (read_legacy_cplx zero add parse (mkJ (j_format j) (j_dtype j) (j_dims j) (j_phys j) (j_aux j) (j_data j) (j_num j) (Some entries'))
      dims entries' es' Hdt Hd eq_refl Hf') as (t2 & Ht2 & Hw2 & Hdt2 & Hg2).
    exists (TCplx t). split; [exact Hw|]. split; [exact Hdt'|]. split; [exact Ht|].
    rewrite Ht2. f_equal; f_equal. apply tensor_ext; [exact Hw2|exact Hw|congruence|].
    intros ix Hr. rewrite Hdt2 in Hr. rewrite Hg, Hg2 by exact Hr. f_equal. f_equal.
    symmetry; apply values_at_perm; assumption. Qed.
