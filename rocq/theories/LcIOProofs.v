(** Proofs about files of linear-combination states. *)
From Verif Require Import Base BaseLemmas Text TextLemmas Tensor TensorLemmas TensorIO TensorIOSpec
  TensorIOProofs BasisIOProofs StateIO StateIOProofs Lattice LcIO LcIOSpec.
Open Scope nat_scope.
Open Scope list_scope.
Open Scope res_scope.

Lemma Forall2_refl_map {A B} (P : A -> B -> Prop) (f : A -> B) l :
  (forall a, In a l -> P a (f a)) -> Forall2 P l (map f l).
Proof. induction l as [|a l IH]; intros Hl; cbn; constructor; [apply Hl; left; reflexivity|].
  apply IH; intros b Hb; apply Hl; right; exact Hb. Qed.

Lemma mapM_ok_map {A B} (f : A -> res B) (g : A -> B) l :
  (forall a, In a l -> f a = Ok (g a)) -> mapM f l = Ok (map g l).
Proof. induction l as [|a l IH]; intros Hl; cbn; [reflexivity|].
  rewrite Hl by (left; reflexivity). cbn [bind]. rewrite IH by (intros b Hb; apply Hl; right; exact Hb).
  reflexivity. Qed.

Lemma mapM_mapM {A B C} (f : A -> res B) (g : B -> res C) l l' :
  mapM f l = Ok l' -> (forall a b, In a l -> f a = Ok b -> exists c, g b = Ok c) -> exists l'', mapM g l' = Ok l''.
Proof. revert l'; induction l as [|a l IH]; cbn; intros l' Hm Hg; [inv Hm; exists []; reflexivity|].
  bind_inv Hm. rename a0 into b. bind_inv Hm. rename a0 into bs. inv Hm.
  destruct (Hg a b (or_introl eq_refl) Ha) as [c Hc]. destruct (IH bs Ha0) as [cs Hcs];
    [intros; eapply Hg; [right; eassumption|eassumption]|].
  exists (c :: cs). cbn. rewrite Hc; cbn [bind]. rewrite Hcs. reflexivity. Qed.

Lemma Forall2_nth_error_l {A B} (P : A -> B -> Prop) l l' k a :
  Forall2 P l l' -> nth_error l k = Some a -> exists b, nth_error l' k = Some b /\ P a b.
Proof. intros Hf. revert k. induction Hf as [|x y l l' Hxy Hf IH]; intros [|k] Hk; try discriminate; cbn in *.
  - injection Hk; intros <-. eauto.
  - apply IH; exact Hk. Qed.

Section P.
Context {R : Type}.
Variables zero one : R.
Variables add mul sub : R -> R -> R.
Variable is_zero : R -> bool.
Variable fmt : R -> string.
Variable parse : string -> option R.
Variable fmtc : R * R -> string.
Variables normalized normalized4 : ten R -> ten R.
Hypothesis parse_fmt : forall x, parse (fmt x) = Some x.
Hypothesis fmt_token : forall x, token (fmt x) = true.
Hypothesis is_zero_spec : forall x, is_zero x = true <-> x = zero.

(** the index of an element of the file *)
Definition pick (aux : list nat) (ix : list nat) : list nat :=
  hd 0 ix :: map (fun k => nth k (tl ix) 0) aux.

Lemma perm4 aux : Permutation aux [0;1;2;3] ->
  exists a b c d, aux = [a; b; c; d] /\ a < 4 /\ b < 4 /\ c < 4 /\ d < 4 /\ NoDup [a; b; c; d].
Proof. intros Hp. assert (Hl := Permutation_length Hp). cbn in Hl.
  destruct aux as [|a [|b [|c [|d [|? ?]]]]]; try discriminate. exists a, b, c, d. split; [reflexivity|].
  assert (Hin : forall x, In x [a;b;c;d] -> x < 4).
  { intros x Hx. apply (Permutation_in _ Hp) in Hx. cbn in Hx. lia. }
  repeat split; try (apply Hin; cbn; auto).
  eapply Permutation_NoDup; [symmetry; exact Hp|]. apply (seq_NoDup 4 0). Qed.

Lemma len5 (ix : list nat) : length ix = 5 -> exists i a b c d, ix = [i; a; b; c; d].
Proof. destruct ix as [|i [|a [|b [|c [|d [|? ?]]]]]]; try discriminate. eauto 6. Qed.

Lemma line_index_pick aux ix : Permutation aux [0;1;2;3] -> length ix = 5 ->
  line_index (map S aux) ix = Ok (pick aux ix).
Proof. intros Hp Hl. destruct (perm4 _ Hp) as (a & b & c & d & -> & Ha & Hb & Hc & Hd & _).
  destruct (len5 _ Hl) as (i & j0 & j1 & j2 & j3 & ->).
  destruct a as [|[|[|[|]]]]; try lia; destruct b as [|[|[|[|]]]]; try lia;
  destruct c as [|[|[|[|]]]]; try lia; destruct d as [|[|[|[|]]]]; try lia; reflexivity. Qed.

Lemma pick_inj aux ix jx : Permutation aux [0;1;2;3] -> length ix = 5 -> length jx = 5 ->
  pick aux ix = pick aux jx -> ix = jx.
Proof. intros Hp Hi Hj. destruct (len5 _ Hi) as (i & a0 & a1 & a2 & a3 & ->).
  destruct (len5 _ Hj) as (j & b0 & b1 & b2 & b3 & ->). unfold pick; cbn [hd tl]. intros He.
  injection He; intros Hm ->.
  assert (Hk : forall k, k < 4 -> nth k [a0;a1;a2;a3] 0 = nth k [b0;b1;b2;b3] 0).
  { intros k Hk. assert (Hin : In k aux). { eapply Permutation_in; [symmetry; exact Hp|]. cbn; lia. }
    clear -Hm Hin. induction aux as [|x aux IH]; [contradiction|]. cbn [map] in Hm. injection Hm; intros H1 H2.
    destruct Hin as [<-|Hin]; [exact H2|auto]. }
  assert (H0 := Hk 0). assert (H1 := Hk 1). assert (H2 := Hk 2). assert (H3 := Hk 3). cbn in H0, H1, H2, H3.
  rewrite H0, H1, H2, H3 by lia. reflexivity. Qed.

Lemma pick_default ix : length ix = 5 -> pick [0;1;2;3] ix = ix.
Proof. intros Hl. destruct (len5 _ Hl) as (i & a & b & c & d & ->). reflexivity. Qed.

Lemma values_at_map {V} (g : list nat -> list nat) (es : list (list nat * V)) ix :
  (forall e, In e es -> g (fst e) = g ix -> fst e = ix) ->
  values_at (map (fun e => (g (fst e), snd e)) es) (g ix) = values_at es ix.
Proof. unfold values_at. induction es as [|e es IH]; intros Hi; [reflexivity|]. cbn [map filter fst].
  assert (IH' := IH (fun e' He => Hi e' (or_intror He))).
  destruct (eqb (g (fst e)) (g ix)) eqn:E1; destruct (eqb (fst e) ix) eqn:E2; cbn [map snd]; try (now rewrite IH').
  - apply (eqb_true (g (fst e)) (g ix)) in E1. apply Hi in E1; [|left; reflexivity].
    apply (eqb_false (fst e) ix) in E2. contradiction.
  - apply (eqb_true (fst e) ix) in E2. rewrite E2 in E1. apply (eqb_false (g ix) (g ix)) in E1. contradiction. Qed.

(** ** a sparse tensor with any injective renaming of the indices *)
Lemma read_sparse_real (t : tensor R) dims (g : list nat -> list nat) :
  twf t -> dims <> [] ->
  (forall ix v, tget t ix = Some v -> v <> zero -> addresses dims (g ix)) ->
  (forall ix jx, length ix = length (tdims t) -> length jx = length (tdims t) -> g ix = g jx -> ix = jx) ->
  exists t', read_sparse zero parse false dims
      (map (fun e => line (g (fst e)) (fmt (snd e))) (filter (fun e => negb (is_zero (snd e))) (telts t))) = Ok (TReal t') /\
    twf t' /\ tdims t' = dims /\
    forall ix, length ix = length (tdims t) -> addresses dims (g ix) ->
      tget t' (g ix) = match tget t ix with Some v => Some v | None => Some zero end.
Proof. intros Hw Hne Ha Hinj.
  set (nz := filter (fun e => negb (is_zero (snd e))) (telts t)).
  assert (Hnz : forall ix v, In (ix, v) nz -> tget t ix = Some v /\ v <> zero).
  { intros ix v Hi. apply filter_In in Hi; destruct Hi as [Hi Hz]. split.
    - apply In_dget; [|exact Hi]. change (NoDup (dkeys (telts t))). rewrite telts_keys by exact Hw. apply NoDup_indices.
    - intros ->. cbn in Hz. rewrite (proj2 (is_zero_spec zero) eq_refl) in Hz. discriminate. }
  destruct (assign_all (basis_real parse (length dims)) (line_real fmt) dims
     (map (fun e => (g (fst e), snd e)) nz) (tzeros zero dims)) as (X & HX & HwX & HdX & HgX).
  - intros X ix v HwX HdX Hx. apply basis_real_line; assumption.
  - intros ix v Hi. apply in_map_iff in Hi. destruct Hi as ([jx w] & He & Hi). cbn in He. injection He; intros <- <-.
    destruct (Hnz _ _ Hi). eapply Ha; eassumption.
  - apply twf_tzeros.
  - reflexivity.
  - exists X. unfold read_sparse. rewrite map_map in HX. cbn [fst snd] in HX.
    replace (map (fun e => line (g (fst e)) (fmt (snd e))) nz) with
      (map (fun x => line_real fmt (g (fst x)) (snd x)) nz) by reflexivity.
    rewrite HX. split; [reflexivity|]. split; [exact HwX|]. split; [exact HdX|].
    intros ix Hl Had. rewrite HgX, tget_tzeros by exact Had. cbn [option_map].
    rewrite values_at_map.
    + destruct (tget t ix) as [v|] eqn:Ev.
      * unfold nz. rewrite (filter_values t (fun v => negb (is_zero v)) ix v Hw Ev).
        destruct (is_zero v) eqn:E; cbn; [|reflexivity]. apply is_zero_spec in E; subst; reflexivity.
      * rewrite values_at_none; [reflexivity|]. intros Hx. apply in_map_iff in Hx.
        destruct Hx as ([jx w] & He & Hx). cbn in He; subst jx. apply Hnz in Hx. destruct Hx; congruence.
    + intros [jx w] Hi He. cbn [fst] in *. apply Hnz in Hi. destruct Hi as [Hi _].
      apply Hinj; [|exact Hl|exact He]. apply (in_range_length (tdims t) jx). eapply tget_range; eassumption. Qed.

Lemma pick_addresses aux p a ix : Permutation aux [0;1;2;3] -> length ix = 5 ->
  addresses [p; a; a; a; a] (pick aux ix) <-> addresses [p; a; a; a; a] ix.
Proof. intros Hp Hl. destruct (len5 _ Hl) as (i & x0 & x1 & x2 & x3 & ->). unfold pick; cbn [hd tl].
  assert (Hall : addresses [p;a;a;a;a] [i;x0;x1;x2;x3] <-> i < p /\ forall k, k < 4 -> nth k [x0;x1;x2;x3] 0 < a).
  { unfold addresses. split.
    - intros Hx. inv Hx. inv H4. inv H6. inv H7. inv H8. split; [assumption|].
      intros [|[|[|[|]]]] Hk; cbn; try assumption; lia.
    - intros [Hi Hk]. assert (K0 := Hk 0 ltac:(lia)). assert (K1 := Hk 1 ltac:(lia)). assert (K2 := Hk 2 ltac:(lia)).
      assert (K3 := Hk 3 ltac:(lia)). cbn in K0, K1, K2, K3. repeat constructor; assumption. }
  rewrite Hall. destruct (perm4 _ Hp) as (b & c & d & e & -> & Hb & Hc & Hd & He & _). cbn [map]. split.
  - intros Hx. unfold addresses in Hx. inv Hx. inv H4. inv H6. inv H7. inv H8. split; [assumption|].
    intros k Hk. assert (Hin : In k [b; c; d; e]). { eapply Permutation_in; [symmetry; exact Hp|]. cbn; lia. }
    cbn in Hin. destruct Hin as [<-|[<-|[<-|[<-|[]]]]]; assumption.
  - intros [Hi Hk]. unfold addresses. repeat constructor; auto. Qed.

(** ** one elementary tensor *)
Lemma write_elem_real aux m (t : tensor R) p a b c d : Permutation aux [0;1;2;3] -> twf t -> tdims t = [p; a; b; c; d] ->
  write_elem is_zero fmt fmtc (map S aux) (m, TReal t) =
  Ok (mkJE (Some "float64"%string) (Some (m_meta m)) (Some p) (Some a)
        (Some (length (filter (fun e => negb (is_zero (snd e))) (telts t))))
        (Some (map (fun e => line (pick aux (fst e)) (fmt (snd e))) (filter (fun e => negb (is_zero (snd e))) (telts t))))).
Proof. intros Hp Hw Hd. unfold write_elem. cbn [ten_shape]. rewrite Hd. cbn [nth_res nth_error bind].
  rewrite (mapM_ok_map _ (fun e => line (pick aux (fst e)) (snd e))).
  - cbn [bind dtype_str ten_cplx nonzero]. rewrite map_length, map_map. reflexivity.
  - intros e He. cbn [nonzero] in He. apply in_map_iff in He. destruct He as ([ix v] & <- & He).
    apply filter_In in He; destruct He as [He _]. cbn [fst snd].
    rewrite line_index_pick; [reflexivity|exact Hp|].
    assert (Hr := telts_addresses t ix v Hw He). rewrite (in_range_length _ _ Hr), Hd. reflexivity. Qed.

Lemma elem_roundtrip aux m (t : tensor R) p a b c d : Permutation aux [0;1;2;3] -> twf t -> tdims t = [p; a; b; c; d] ->
  (forall ix v, tget t ix = Some v -> v <> zero -> addresses [p; a; a; a; a] ix) ->
  exists j t', write_elem is_zero fmt fmtc (map S aux) (m, TReal t) = Ok j /\
    read_elem zero parse j = Ok (mkM (m_meta m) [], TReal t') /\
    twf t' /\ tdims t' = [p; a; a; a; a] /\
    forall ix, length ix = 5 -> addresses [p; a; a; a; a] (pick aux ix) ->
      tget t' (pick aux ix) = match tget t ix with Some v => Some v | None => Some zero end.
Proof. intros Hp Hw Hd Hbox. eexists.
  destruct (read_sparse_real t [p; a; a; a; a] (pick aux) Hw ltac:(discriminate)) as (t' & Hr & Hw' & Hd' & Hg).
  - intros ix v Hv Hz. specialize (Hbox ix v Hv Hz). apply pick_addresses; [exact Hp| |exact Hbox].
    apply (in_range_length _ _ Hbox).
  - intros ix jx Hi Hj He. rewrite Hd in Hi, Hj. exact (pick_inj _ _ _ Hp Hi Hj He).
  - exists t'. split; [exact (write_elem_real aux m t p a b c d Hp Hw Hd)|].
    unfold read_elem, loc_dtype. cbn [je_dtype je_meta je_phys je_aux je_entries key bind].
    replace (eqb "float64"%string "complex128"%string) with false by reflexivity.
    replace (eqb "float64"%string "float64"%string) with true by reflexivity. cbn [bind].
    rewrite Hr. cbn [bind]. split; [reflexivity|]. split; [exact Hw'|]. split; [exact Hd'|].
    intros ix Hl Ha. apply Hg; [rewrite Hd; exact Hl|exact Ha]. Qed.

Lemma elem_square aux m (t : tensor R) p a : Permutation aux [0;1;2;3] -> twf t -> tdims t = [p; a; a; a; a] ->
  exists j t', write_elem is_zero fmt fmtc (map S aux) (m, TReal t) = Ok j /\
    read_elem zero parse j = Ok (mkM (m_meta m) [], TReal t') /\ reordered aux t t' /\ tdims t' = tdims t.
Proof. intros Hp Hw Hd.
  destruct (elem_roundtrip aux m t p a a a a Hp Hw Hd) as (j & t' & Hj & Hr & Hw' & Hd' & Hg).
  { intros ix v Hv _. rewrite <- Hd. eapply tget_range; eassumption. }
  exists j, t'. split; [exact Hj|]. split; [exact Hr|]. split; [|congruence].
  split; [exact Hw'|]. split.
  - rewrite Hd', Hd. cbn [hd tl]. destruct (perm4 _ Hp) as (b & c & d & e & -> & Hb & Hc & Hd2 & He & _).
    assert (Hn : forall k, k < 4 -> nth k [a; a; a; a] 0 = a).
    { intros [|[|[|[|]]]] Hk; cbn; try reflexivity; lia. }
    cbn [map]. rewrite !Hn by assumption. reflexivity.
  - intros i js Hl. assert (Hl5 : length (i :: js) = 5).
    { cbn. rewrite Hl, (Permutation_length Hp). reflexivity. }
    change (i :: map (fun k => nth k js 0) aux) with (pick aux (i :: js)).
    destruct (tget t (i :: js)) as [v|] eqn:E.
    + rewrite Hg; [rewrite E; reflexivity|exact Hl5|]. apply pick_addresses; [exact Hp|exact Hl5|].
      rewrite <- Hd. eapply tget_range; eassumption.
    + apply tget_None; [exact Hw'|]. rewrite Hd'. intros Hx. apply (pick_addresses aux p a _ Hp Hl5) in Hx.
      destruct (tget_Some t (i :: js) Hw) as [v Hv]; [rewrite Hd; exact Hx|congruence]. Qed.

Lemma reordered_default (t t' : tensor R) p a : twf t -> tdims t = [p; a; a; a; a] -> reordered [0;1;2;3] t t' -> t' = t.
Proof. intros Hw Hd (Hw' & Hd' & Hg). rewrite Hd in Hd'. cbn in Hd'.
  apply tensor_ext; [exact Hw'|exact Hw|congruence|]. intros ix Hr. rewrite Hd' in Hr.
  destruct (len5 ix) as (i & b & c & d & e & ->); [apply (in_range_length _ _ Hr)|].
  exact (Hg i [b; c; d; e] eq_refl). Qed.

(** ** bond tensors *)
Lemma bond_roundtrip m (t : tensor R) a : twf t -> tdims t = [a; a] ->
  exists j, write_bond is_zero fmt fmtc (m, TReal t) = Ok j /\
    read_bond zero parse j = Ok (mkM (m_meta m) [], TReal t).
Proof. intros Hw Hd.
  destruct (read_sparse_real t [a; a] (fun ix => ix) Hw ltac:(discriminate)) as (t' & Hr & Hw' & Hd' & Hg).
  - intros ix v Hv _. rewrite <- Hd. eapply tget_range; eassumption.
  - intros; assumption.
  - assert (t' = t) as ->.
    { apply tensor_ext; [exact Hw'|exact Hw|congruence|]. intros ix Hx. rewrite Hd' in Hx.
      rewrite Hg; [|rewrite Hd; apply (in_range_length _ _ Hx)|exact Hx].
      destruct (tget_Some t ix Hw) as [v ->]; [rewrite Hd; exact Hx|reflexivity]. }
    exists (mkJE (Some "float64"%string) (Some (m_meta m)) None (Some a)
        (Some (length (filter (fun e => negb (is_zero (snd e))) (telts t))))
        (Some (map (fun e => line (fst e) (fmt (snd e))) (filter (fun e => negb (is_zero (snd e))) (telts t))))). split.
    + unfold write_bond. cbn [ten_shape]. rewrite Hd. cbn [nth_res nth_error bind].
      rewrite (mapM_ok_map _ (fun e => line (fst e) (snd e))).
      * cbn [bind dtype_str ten_cplx nonzero]. rewrite map_length, map_map. reflexivity.
      * intros e He. cbn [nonzero] in He. apply in_map_iff in He. destruct He as ([ix v] & <- & He).
        apply filter_In in He; destruct He as [He _]. cbn [fst snd].
        assert (Hx := telts_addresses t ix v Hw He). rewrite Hd in Hx.
        unfold addresses in Hx. inv Hx. inv H3. inv H5. reflexivity.
    + unfold read_bond, loc_dtype. cbn [je_dtype je_meta je_phys je_aux je_entries key bind].
      replace (eqb "float64"%string "complex128"%string) with false by reflexivity.
      replace (eqb "float64"%string "float64"%string) with true by reflexivity. cbn [bind].
      rewrite Hr. reflexivity. Qed.

(** ** coefficient vectors *)
Definition coef_text (ix : list nat) (v : R) : string := (print_nat (hd 0 ix) ++ " " ++ fmt v)%string.

Lemma coef_line (X : tensor R) n ix v : tdims X = [n] -> addresses [n] ix ->
  coef_real parse X (coef_text ix v) = tupdate X (map Z.of_nat ix) (fun _ => v).
Proof. intros Hd Hi. unfold addresses in Hi. inv Hi. inv H3. unfold coef_text; cbn [hd map]. unfold coef_real.
  assert (Hs : split_ws (print_nat y ++ " " ++ fmt v)%string = [print_nat y; fmt v]).
  { assert (Hj := split_ws_join [print_nat y] (fmt v)). cbn [join_sp forallb] in Hj. rewrite token_print in Hj.
    cbn [append]. apply Hj; [reflexivity|apply fmt_token]. }
  rewrite Hs. unfold tok_at; cbn [nth_error bind]. unfold float_of; rewrite parse_fmt; cbn [bind].
  unfold int_of; rewrite parse_print; reflexivity. Qed.

Lemma indices_1 n : indices [n] = map (fun i => [i]) (seq 0 n).
Proof. cbn [indices]. induction (seq 0 n) as [|x xs IH]; [reflexivity|]. cbn [flat_map map app]. now f_equal. Qed.

Lemma combine_map_l {A B C} (f : A -> C) (l : list A) (l' : list B) :
  combine (map f l) l' = map (fun ab => (f (fst ab), snd ab)) (combine l l').
Proof. revert l'; induction l as [|a l IH]; intros [|b l']; cbn; try reflexivity. now rewrite IH. Qed.

Lemma coef_roundtrip id n l : length l = n ->
  exists j, write_coef fmt fmtc id (TReal (mkT [n] l)) = Ok j /\ jc_siteId j = id /\
    read_coef zero parse j = Ok (TReal (mkT [n] l)).
Proof. intros Hl. eexists. split; [reflexivity|]. split; [reflexivity|].
  unfold read_coef, loc_dtype. cbn [jc_dtype jc_num jc_entries key bind dtype_str ten_cplx tdata].
  replace (eqb "float64"%string "complex128"%string) with false by reflexivity.
  replace (eqb "float64"%string "float64"%string) with true by reflexivity. cbn [bind].
  assert (Hw : twf (mkT [n] l)) by (unfold twf; cbn; lia).
  rewrite combine_map_r, map_map. cbn [fst snd].
  destruct (assign_all (coef_real parse) coef_text [n] (telts (mkT [n] l)) (tzeros zero [n])) as (X & HX & HwX & HdX & HgX).
  - intros X ix v _ HdX Ha. apply (coef_line X n); assumption.
  - intros ix v Hi. exact (telts_addresses (mkT [n] l) ix v Hw Hi).
  - apply twf_tzeros.
  - reflexivity.
  - unfold telts in HX. cbn [tdims tdata] in HX. rewrite indices_1, combine_map_l, map_map in HX.
    cbn [fst snd] in HX. unfold coef_text in HX. cbn [hd] in HX. rewrite HX. cbn [bind]. f_equal. f_equal.
    apply tensor_ext; [exact HwX|exact Hw|exact HdX|]. intros ix Hr. rewrite HdX in Hr.
    rewrite HgX, tget_tzeros by exact Hr. cbn [option_map].
    destruct (tget_Some (mkT [n] l) ix Hw Hr) as [v Hv]. rewrite Hv. f_equal.
    rewrite (values_at_nodup _ ix v); [reflexivity| |apply dget_In; exact Hv].
    change (NoDup (dkeys (telts (mkT [n] l)))). rewrite telts_keys by exact Hw. apply NoDup_indices. Qed.

(** ** the loop over "map" *)
Lemma find_coef_In l j : NoDup (map jc_siteId l) -> In j l -> find_coef l (jc_siteId j) = Some j.
Proof. unfold find_coef. generalize (@None jcoef). induction l as [|i l IH]; intros acc Hn Hi; [contradiction|].
  cbn in Hn. apply NoDup_cons_iff in Hn; destruct Hn as [Hni Hn]. destruct Hi as [<-|Hi].
  - cbn [fold_left].
    replace (eqb (jc_siteId i) (jc_siteId i)) with true by (symmetry; apply (eqb_true (jc_siteId i) (jc_siteId i)); reflexivity).
    assert (Hkeep : forall l acc, ~ In (jc_siteId i) (map jc_siteId l) ->
      fold_left (fun (acc : option jcoef) s => if eqb (jc_siteId s) (jc_siteId i) then Some s else acc) l acc = acc).
    { clear. induction l as [|j l IH]; intros acc Hx; [reflexivity|]. cbn [fold_left].
      destruct (eqb (jc_siteId j) (jc_siteId i)) eqn:E.
      - apply (eqb_true (jc_siteId j) (jc_siteId i)) in E. exfalso; apply Hx; left; exact E.
      - apply IH; intros Hy; apply Hx; right; exact Hy. }
    apply Hkeep; exact Hni.
  - cbn [fold_left]. apply IH; assumption. Qed.

Lemma read_coeffs_loop js (nl : list (nat * (coord * ten R))) d :
  (forall n c t, In (n, (c, t)) nl -> exists j, find_coef js (site_id n) = Some j /\ read_coef zero parse j = Ok t) ->
  NoDup (map (fun x => fst (snd x)) nl) ->
  (forall c, In c (map (fun x => fst (snd x)) nl) -> dget d c = None) ->
  foldM (fun d ts => match find_coef js (fst ts) with
                     | None => Err KeyError
                     | Some j => x <- read_coef zero parse j ;; Ok (dset d (snd ts) x)
                     end) (map (fun nc => (site_id (fst nc), fst (snd nc))) nl) d = Ok (d ++ map snd nl).
Proof. revert d. induction nl as [|[n [c t]] nl IH]; intros d Hs Hn Hd.
  - cbn. now rewrite app_nil_r.
  - cbn [map foldM fst snd]. destruct (Hs n c t (or_introl eq_refl)) as (j & -> & ->). cbn [bind].
    cbn [map fst snd] in Hn, Hd. apply NoDup_cons_iff in Hn; destruct Hn as [Hc Hn].
    rewrite dset_new by (apply Hd; left; reflexivity). rewrite IH; [now rewrite <- app_assoc| |exact Hn|].
    + intros m c' t' Hi. exact (Hs m c' t' (or_intror Hi)).
    + intros c' Hc'. rewrite <- (dset_new d c t) by (apply Hd; left; reflexivity).
      rewrite dget_dset_other by (intros ->; contradiction). apply Hd; right; exact Hc'. Qed.

Notation numbered_c cs := (combine (seq 0 (length cs)) cs).

Lemma coeffs_roundtrip (f : ten R -> ten R) (cs : dict coord (ten R)) :
  NoDup (dkeys cs) -> (forall c v, In (c, v) cs -> vector (f v)) ->
  exists js, mapM (fun nc : nat * (coord * ten R) => let '(nid, (_, c)) := nc in
                write_coef fmt fmtc (site_id nid) (f c)) (numbered_c cs) = Ok js /\
    read_coeffs zero parse js (map (fun nc => (site_id (fst nc), fst (snd nc))) (numbered_c cs))
      = Ok (map (fun kc => (fst kc, f (snd kc))) cs).
Proof. intros Hn Hv.
  assert (Hjs : forall s, exists js, mapM (fun nc : nat * (coord * ten R) => let '(nid, (_, c)) := nc in
                write_coef fmt fmtc (site_id nid) (f c)) (combine (seq s (length cs)) cs) = Ok js /\
     map jc_siteId js = map site_id (seq s (length cs)) /\
     Forall2 (fun nc j => read_coef zero parse j = Ok (f (snd (snd nc)))) (combine (seq s (length cs)) cs) js).
  { clear Hn. revert Hv. induction cs as [|[c v] cs IH]; intros Hv s.
    - exists []. repeat split; constructor.
    - destruct (Hv c v (or_introl eq_refl)) as (n & l & Hfv & Hl).
      destruct (coef_roundtrip (site_id s) n l Hl) as (j & Hj & Hid & Hr).
      destruct (IH (fun c' v' Hi => Hv c' v' (or_intror Hi)) (S s)) as (js & Hjs & Hids & Hf).
      exists (j :: js). cbn [length seq combine mapM]. rewrite Hfv, Hj. cbn [bind]. rewrite Hjs. cbn [bind].
      split; [reflexivity|]. split; [cbn [map]; now rewrite Hid, Hids|]. constructor; [|exact Hf].
      cbn [snd]. rewrite Hfv. exact Hr. }
  destruct (Hjs 0) as (js & Hm & Hids & Hf). exists js. split; [exact Hm|].
  unfold read_coeffs.
  assert (Hcomb : map (fun nc => (site_id (fst nc), fst (snd nc))) (numbered_c cs) =
     map (fun nc => (site_id (fst nc), fst (snd nc))) (numbered_c (map (fun kc => (fst kc, f (snd kc))) cs))).
  { rewrite map_length, combine_map_r, map_map. reflexivity. }
  rewrite Hcomb, read_coeffs_loop.
  - cbn [app]. f_equal. apply map_snd_combine. now rewrite seq_length.
  - intros n c t Hi. rewrite map_length, combine_map_r in Hi. apply in_map_iff in Hi.
    destruct Hi as ([m [c' v]] & He & Hi). cbn in He. injection He; intros <- <- <-.
    apply In_nth_error in Hi. destruct Hi as [k Hk].
    destruct (Forall2_nth_error_l _ _ _ _ _ Hf Hk) as (j & Hj & Hr). exists j. cbn [snd] in Hr. split; [|exact Hr].
    assert (Hid : jc_siteId j = site_id m).
    { assert (H1 : nth_error (map jc_siteId js) k = Some (jc_siteId j)) by (rewrite nth_error_map, Hj; reflexivity).
      rewrite Hids, nth_error_map in H1.
      assert (H2 : nth_error (map fst (numbered_c cs)) k = Some m) by (rewrite nth_error_map, Hk; reflexivity).
      rewrite map_fst_combine in H2 by (now rewrite seq_length). rewrite H2 in H1. cbn [option_map] in H1. congruence. }
    rewrite <- Hid. apply find_coef_In; [|eapply nth_error_In; exact Hj].
    rewrite Hids. apply NoDup_map_inj; [intros; apply site_id_inj; assumption|apply seq_NoDup].
  - rewrite map_length, combine_map_r, map_map. cbn [snd fst].
    replace (map (fun x => fst (snd x)) (numbered_c cs)) with (dkeys cs); [exact Hn|].
    unfold dkeys. rewrite <- (map_snd_combine (seq 0 (length cs)) cs) at 1 by now rewrite seq_length.
    rewrite map_map. reflexivity.
  - reflexivity. Qed.
End P.
