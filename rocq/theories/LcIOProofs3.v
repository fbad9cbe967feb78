(** Proofs about files of linear-combination states: write then read. *)
From Coq Require Import Ascii.
From Verif Require Import Base BaseLemmas Text TextLemmas Tensor TensorLemmas TensorIO TensorIOSpec
  TensorIOProofs BasisIOProofs StateIO StateIOProofs Lattice LcIO LcIOSpec LcIOProofs LcIOProofs2.
Open Scope nat_scope.
Open Scope list_scope.
Open Scope res_scope.

Lemma mapM_err {A B} (f : A -> res B) l a e : In a l -> f a = Err e -> exists e', mapM f l = Err e'.
Proof. induction l as [|x l IH]; [contradiction|]. intros [->|Hi] Ha; cbn.
  - rewrite Ha. cbn. eauto.
  - destruct (f x) as [y|]; cbn; [|eauto]. destruct (IH Hi Ha) as [e' ->]. cbn. eauto. Qed.

Lemma mapM_In {A B} (f : A -> res B) l l' a : mapM f l = Ok l' -> In a l -> exists b, f a = Ok b /\ In b l'.
Proof. revert l'; induction l as [|x l IH]; [contradiction|]. cbn. intros l' Hm Hi. bind_inv Hm. bind_inv Hm. inv Hm.
  destruct Hi as [->|Hi]; [exists a0; split; [assumption|left; reflexivity]|].
  destruct (IH _ Ha0 Hi) as (b & Hb & Hin). exists b; split; [exact Hb|right; exact Hin]. Qed.

Lemma foldM_err {S A} (P : S -> Prop) (f : S -> A -> res S) l s a :
  In a l -> P s -> (forall s x s', P s -> In x l -> f s x = Ok s' -> P s') ->
  (forall s, P s -> exists e, f s a = Err e) -> exists e, foldM f l s = Err e.
Proof. revert s. induction l as [|x l IH]; [contradiction|]. intros s [->|Hi] Hs Hp He; cbn.
  - destruct (He s Hs) as [e ->]. cbn. eauto.
  - destruct (f s x) as [s'|e] eqn:E; cbn; [|eauto]. apply IH; [exact Hi| | |exact He].
    + eapply Hp; [exact Hs|left; reflexivity|exact E].
    + intros s0 y s1 H0 Hy. apply Hp; [exact H0|right; exact Hy]. Qed.

Section P.
Context {R : Type}.
Variables zero one : R.
Variables add mul sub : R -> R -> R.
Variable is_zero : R -> bool.
Variable fmt : R -> string.
Variable parse : string -> option R.
Variable fmtc : R * R -> string.
Variables normalized normalized4 : ten R -> ten R.
Hypothesis parse_fmt : forall x, parse (fmt x) = Some x.
Hypothesis fmt_token : forall x, token (fmt x) = true.
Hypothesis is_zero_spec : forall x, is_zero x = true <-> x = zero.

Notation new := (lcs_new zero one add mul sub).
Notation write := (write_lc is_zero fmt fmtc normalized).
Notation read := (read_lc zero one add mul sub parse).

Lemma elems_roundtrip aux (elem : list (lmeta * ten R)) : Permutation aux [0;1;2;3] ->
  (forall mt, In mt elem -> square (snd mt)) ->
  exists es elem', mapM (write_elem is_zero fmt fmtc (map S aux)) elem = Ok es /\
    mapM (read_elem zero parse) es = Ok elem' /\ Forall2 (rel (reo aux)) elem elem'.
Proof. intros Hp. induction elem as [|[m t] l IH]; intros Hl.
  - exists [], []. repeat split; constructor.
  - destruct (Hl (m, t) (or_introl eq_refl)) as (T & p & a & Ht & Hd & Hw). cbn in Ht; subst t.
    destruct (elem_square zero is_zero fmt parse fmtc parse_fmt fmt_token is_zero_spec aux m T p a Hp Hw Hd) as (j & T' & Hj & Hr & Hre & Hd').
    destruct (IH (fun mt Hi => Hl mt (or_intror Hi))) as (es & l' & Hes & Hl' & Hf).
    exists (j :: es), ((mkM (m_meta m) [], TReal T') :: l'). cbn [mapM]. rewrite Hj, Hr. cbn [bind]. rewrite Hes, Hl'. cbn [bind].
    split; [reflexivity|]. split; [reflexivity|]. constructor; [|exact Hf].
    split; [reflexivity|]. cbn [snd]. split; [exact Hre|exact Hd']. Qed.

Lemma read_write aux (nrm : bool) seq' elem coeffs st : Permutation aux [0;1;2;3] ->
  (forall mt, In mt elem -> square (snd mt)) -> NoDup (dkeys coeffs) ->
  (forall k c, In (k, c) coeffs -> vector (if nrm then normalized c else c)) ->
  new elem coeffs = Ok st ->
  exists j elem', write aux nrm st = Ok j /\ Forall2 (rel (reo aux)) elem elem' /\
    read seq' j = new elem' (map (fun kc => (fst kc, if nrm then normalized (snd kc) else snd kc)) coeffs).
Proof. intros Hp He Hn Hc Hst.
  assert (Hse : s_elem st = elem /\ s_coeffs st = coeffs).
  { unfold lcs_new in Hst. bind_inv Hst. bind_inv Hst. inv Hst. split; reflexivity. }
  destruct Hse as [Hse Hsc].
  destruct (elems_roundtrip aux elem Hp He) as (es & elem' & Hes & Hel & Hf).
  destruct (coeffs_roundtrip zero fmt parse fmtc parse_fmt fmt_token
     (fun c => if nrm then normalized c else c) coeffs Hn Hc) as (js & Hjs & Hrc).
  unfold write_lc. rewrite Hse, Hsc, Hes. cbn [bind]. rewrite Hjs. cbn [bind].
  eexists _, elem'. split; [reflexivity|]. split; [exact Hf|].
  unfold read_lc. cbn [jl_elem jl_map jl_coeffs key bind]. rewrite Hel. cbn [bind].
  destruct (map (fun nc => (site_id (fst nc), fst (snd nc))) (combine (seq 0 (length coeffs)) coeffs)) as [|x xs] eqn:Em.
  - cbn [bind]. unfold read_coeffs in Hrc; cbn [foldM] in Hrc. injection Hrc; intros <-. reflexivity.
  - cbn [bind]. rewrite Hrc. reflexivity. Qed.

Lemma square_box (mt : lmeta * ten R) : square (snd mt) -> box (ten_shape (snd mt)).
Proof. intros (T & p & a & -> & Hd & _). exists p, a. exact Hd. Qed.

Lemma reo_default l l' : (forall mt : lmeta * ten R, In mt l -> square (snd mt)) ->
  Forall2 (rel (reo [0;1;2;3])) l l' -> Forall2 (rel eq) l l'.
Proof. intros Hl Hf. eapply Forall2_impl2; [|exact Hf]. intros [m t] [m' t'] Hi [Hm [Hr _]]. split; [exact Hm|].
  destruct (Hl _ Hi) as (T & p & a & Ht & Hd & Hw). cbn [snd] in *; subst t. destruct t' as [T'|T']; [|contradiction].
  cbn in Hr. rewrite (reordered_default T T' p a Hw Hd Hr). reflexivity. Qed.

Lemma rel_same l l' : Forall2 (rel (R := R) eq) l l' -> same_elem l l'.
Proof. unfold same_elem. induction 1 as [|a b l l' [Hm Hs] Hf IH]; cbn; [reflexivity|].
  now rewrite Hm, Hs, IH. Qed.

Lemma map_pair_id {A B} (l : list (A * B)) : map (fun kc => (fst kc, snd kc)) l = l.
Proof. induction l as [|[a b] l IH]; cbn; [reflexivity|now rewrite IH]. Qed.

(** ** real states *)
Theorem real_roundtrip elem coeffs st seq' :
  (forall mt, In mt elem -> square (snd mt)) -> NoDup (dkeys coeffs) -> (forall k c, In (k, c) coeffs -> vector c) ->
  new elem coeffs = Ok st ->
  exists j st', write [0;1;2;3] false st = Ok j /\ read seq' j = Ok st' /\
    same_elem (s_elem st) (s_elem st') /\ s_coeffs st' = s_coeffs st /\ s_state st' = s_state st.
Proof. intros He Hn Hc Hst.
  destruct (read_write [0;1;2;3] false seq' elem coeffs st (Permutation_refl _) He Hn Hc Hst) as (j & elem' & Hw & Hf & Hr).
  apply (reo_default _ _ He) in Hf. rewrite map_pair_id in Hr.
  rewrite (new_meta zero one add mul sub _ _ _ _ Hf Hst) in Hr.
  exists j, (mkLC elem' coeffs (s_state st)). split; [exact Hw|]. split; [exact Hr|].
  unfold lcs_new in Hst. bind_inv Hst. bind_inv Hst. inv Hst. cbn [s_elem s_coeffs s_state].
  split; [apply rel_same; exact Hf|split; reflexivity]. Qed.

Theorem normalized_roundtrip elem coeffs st st2 seq' :
  (forall mt, In mt elem -> square (snd mt)) -> NoDup (dkeys coeffs) ->
  (forall k c, In (k, c) coeffs -> vector (normalized c)) ->
  new elem coeffs = Ok st ->
  new elem (map (fun kc => (fst kc, normalized (snd kc))) coeffs) = Ok st2 ->
  exists j st', write [0;1;2;3] true st = Ok j /\ read seq' j = Ok st' /\
    same_elem (s_elem st2) (s_elem st') /\ s_coeffs st' = s_coeffs st2 /\ s_state st' = s_state st2.
Proof. intros He Hn Hc Hst Hst2.
  destruct (read_write [0;1;2;3] true seq' elem coeffs st (Permutation_refl _) He Hn Hc Hst) as (j & elem' & Hw & Hf & Hr).
  apply (reo_default _ _ He) in Hf.
  rewrite (new_meta zero one add mul sub _ _ _ _ Hf Hst2) in Hr.
  eexists j, _. split; [exact Hw|]. split; [exact Hr|].
  unfold lcs_new in Hst2. bind_inv Hst2. bind_inv Hst2. inv Hst2. cbn [s_elem s_coeffs s_state].
  split; [apply rel_same; exact Hf|split; reflexivity]. Qed.

(** ** another order of the auxiliary indices *)
Theorem order_roundtrip aux elem coeffs st seq' : Permutation aux [0;1;2;3] ->
  (forall mt, In mt elem -> square (snd mt)) -> NoDup (dkeys coeffs) -> (forall k c, In (k, c) coeffs -> vector c) ->
  new elem coeffs = Ok st ->
  exists j st' sites sites', write aux false st = Ok j /\ read seq' j = Ok st' /\
    Forall2 (fun mt mt' => m_meta (fst mt') = m_meta (fst mt) /\ reordered_ten aux (snd mt) (snd mt')) (s_elem st) (s_elem st') /\
    s_coeffs st' = s_coeffs st /\
    i_sites (s_state st) = Some sites /\ i_sites (s_state st') = Some sites' /\
    Forall2 (fun a b => fst b = fst a /\ reordered_ten aux (snd a) (snd b)) sites sites' /\
    i_lX (s_state st') = i_lX (s_state st) /\ i_lY (s_state st') = i_lY (s_state st) /\
    forall v, i_v2s (s_state st') v = i_v2s (s_state st) v.
Proof. intros Hp He Hn Hc Hst.
  destruct (read_write aux false seq' elem coeffs st Hp He Hn Hc Hst) as (j & elem' & Hw & Hf & Hr).
  rewrite map_pair_id in Hr.
  destruct (new_reo zero one add mul sub aux Hp elem elem' coeffs st (fun mt Hi => square_box mt (He mt Hi)) Hf Hst)
    as (st' & sites & sites' & Hnew & Hel & Hco & H1 & H2 & H3 & H4 & H5 & H6).
  rewrite Hnew in Hr. exists j, st', sites, sites'. split; [exact Hw|]. split; [exact Hr|].
  assert (Hse : s_elem st = elem /\ s_coeffs st = coeffs).
  { unfold lcs_new in Hst. bind_inv Hst. bind_inv Hst. inv Hst. split; reflexivity. }
  destruct Hse as [-> ->]. split; [|repeat split; assumption].
  rewrite Hel. eapply Forall2_impl2; [|exact Hf]. intros a b _ [Hm [Hre _]]. split; assumption. Qed.

(** ** complex tensors *)
Hypothesis parse_fmtc : forall z, parse (fmtc z) = None.
Hypothesis fmtc_token : forall z, token (fmtc z) = true.

Lemma line_index_len asq ix l : line_index asq ix = Ok l -> length l = 5.
Proof. unfold line_index. intros Hl. bind_inv Hl. bind_inv Hl. inv Hl. cbn. f_equal.
  apply mapM_ok in Ha0. exact (eq_sym (Forall2_len _ _ _ Ha0)). Qed.

Lemma basis_cplx_fails X ix z : length ix = 5 -> basis_cplx parse 5 X (line ix (fmtc z)) = Err ValueError.
Proof. intros Hl. unfold basis_cplx, line. cbn [append].
  rewrite split_sp_join; [|destruct ix; discriminate|apply forallb_no_ws_print].
  rewrite split_sp_one by (apply token_no_ws, fmtc_token).
  rewrite firstn_exact by now rewrite map_length.
  rewrite (mapM_int_of _ _ (Forall2_print ix)). cbn [bind].
  unfold tok_at. rewrite nth_error_app2 by (rewrite map_length; lia).
  rewrite map_length, Hl, Nat.sub_diag. cbn [nth_error bind]. unfold float_of; rewrite parse_fmtc. reflexivity. Qed.

Lemma read_elem_complex asq m t j : ten_wf t -> has_complex_entry zero t ->
  write_elem is_zero fmt fmtc asq (m, t) = Ok j -> read_elem zero parse j = Err ValueError.
Proof. destruct t as [t|t]; [contradiction|]. intros Hwf (ix & v & Hv & Hnz) Hw. unfold write_elem in Hw.
  do 5 bind_inv Hw. bind_inv Hw. rename a4 into entries. inv Hw. cbn [nonzero] in Ha4.
  unfold read_elem, loc_dtype. cbn [je_dtype je_meta je_phys je_aux je_entries key bind dtype_str ten_cplx].
  replace (eqb "complex128"%string "complex128"%string) with true by reflexivity. cbn [bind].
  unfold read_sparse. cbn [length].
  destruct (filter (fun e => negb (is_zero (fst (snd e)) && is_zero (snd (snd e)))) (telts t)) as [|[jx w] l] eqn:El.
  - exfalso. assert (Hin : In (ix, v) (filter (fun e => negb (is_zero (fst (snd e)) && is_zero (snd (snd e)))) (telts t))).
    { apply filter_In. split; [apply dget_In; exact Hv|]. cbn [snd]. apply negb_true_iff. apply not_true_iff_false.
      intros Hz. apply andb_true_iff in Hz. destruct Hz as [H1 H2]. apply is_zero_spec in H1, H2. apply Hnz.
      destruct v; cbn in *; congruence. }
    rewrite El in Hin. contradiction.
  - cbn [map mapM fst snd] in Ha4. bind_inv Ha4. bind_inv Ha5. inv Ha5. bind_inv Ha4. inv Ha4.
    cbn [foldM]. rewrite basis_cplx_fails; [reflexivity|]. eapply line_index_len; eassumption. Qed.

Theorem complex_elem_fails aux nrm seq' st m t j : In (m, t) (s_elem st) -> ten_wf t -> has_complex_entry zero t ->
  write aux nrm st = Ok j -> exists e, read seq' j = Err e.
Proof. intros Hi Hwf Hc Hw. unfold write_lc in Hw. bind_inv Hw. rename a into es. bind_inv Hw. inv Hw.
  unfold read_lc. cbn [jl_elem bind]. destruct (mapM_In _ _ _ _ Ha Hi) as (je & Hje & Hin).
  assert (He := read_elem_complex _ _ _ _ Hwf Hc Hje).
  destruct (mapM_err (read_elem zero parse) es je _ Hin He) as [e ->]. cbn. eauto. Qed.

Lemma coef_cplx_fails X i z : coef_cplx parse X (print_nat i ++ " " ++ fmtc z)%string = Err ValueError.
Proof. unfold coef_cplx.
  assert (Hs : split_ws (print_nat i ++ " " ++ fmtc z)%string = [print_nat i; fmtc z]).
  { assert (Hj := split_ws_join [print_nat i] (fmtc z)). cbn [join_sp forallb] in Hj. rewrite token_print in Hj.
    cbn [append]. apply Hj; [reflexivity|apply fmtc_token]. }
  rewrite Hs. unfold tok_at; cbn [nth_error bind]. unfold float_of; rewrite parse_fmtc. reflexivity. Qed.

Lemma read_coef_complex id n z l j : write_coef fmt fmtc id (TCplx (mkT [S n] (z :: l))) = Ok j ->
  jc_siteId j = id /\ read_coef zero parse j = Err ValueError.
Proof. intros Hj. unfold write_coef in Hj. cbn [nth_res nth_error ten_shape tdims bind tdata map combine seq fst snd] in Hj. inv Hj. split; [reflexivity|].
  unfold read_coef, loc_dtype. cbn [jc_dtype jc_num jc_entries key bind dtype_str ten_cplx].
  replace (eqb "complex128"%string "complex128"%string) with true by reflexivity. cbn [bind foldM].
  match goal with |- context [coef_cplx parse ?X (String _ ?e)] =>
    assert (Hx := coef_cplx_fails X 0 z) end.
  change (print_nat 0 ++ " " ++ fmtc z)%string with (String "0"%char (String " "%char (fmtc z))) in Hx.
  rewrite Hx. reflexivity. Qed.

Theorem complex_coeffs_fail aux nrm seq' st k c n z l j : In (k, c) (s_coeffs st) ->
  (if nrm : bool then normalized c else c) = TCplx (mkT [S n] (z :: l)) ->
  write aux nrm st = Ok j -> exists e, read seq' j = Err e.
Proof. intros Hi Hc Hw. unfold write_lc in Hw. bind_inv Hw. rename a into es. bind_inv Hw. rename a into js. inv Hw.
  unfold read_lc. cbn [jl_elem jl_map jl_coeffs key bind]. destruct (mapM (read_elem zero parse) es) as [elem'|e]; cbn [bind]; [|eauto].
  set (cs := s_coeffs st) in *.
  assert (Hin : exists nid, In (nid, (k, c)) (combine (seq 0 (length cs)) cs)).
  { apply In_nth_error in Hi. destruct Hi as [q Hq]. exists q. apply In_numbered. exact Hq. }
  destruct Hin as [nid Hin].
  assert (Hids : forall s (l0 : list (coord * ten R)) js0, mapM (fun nc : nat * (coord * ten R) => let '(nid0, (_, c0)) := nc in
       write_coef fmt fmtc (site_id nid0) (if nrm then normalized c0 else c0)) (combine (seq s (length l0)) l0) = Ok js0 ->
       map jc_siteId js0 = map site_id (seq s (length l0))).
  { clear. intros s l0. revert s. induction l0 as [|[k0 c0] l0 IH]; intros s js0 Hm; cbn [length seq combine mapM] in Hm.
    - inv Hm; reflexivity.
    - bind_inv Hm. bind_inv Hm. inv Hm. cbn [length seq map]. rewrite (IH _ _ Ha0). f_equal.
      unfold write_coef in Ha. bind_inv Ha. inv Ha. reflexivity. }
  specialize (Hids 0 cs js Ha0).
  destruct (mapM_In _ _ _ _ Ha0 Hin) as (jc & Hjc & Hinj). rewrite Hc in Hjc.
  destruct (read_coef_complex _ _ _ _ _ Hjc) as [Hid Herr].
  assert (Hfind : find_coef js (site_id nid) = Some jc).
  { rewrite <- Hid. apply find_coef_In; [|exact Hinj]. rewrite Hids. apply NoDup_map_inj; [intros; apply site_id_inj; assumption|apply seq_NoDup]. }
  assert (Hmap : In (site_id nid, k) (map (fun nc => (site_id (fst nc), fst (snd nc))) (combine (seq 0 (length cs)) cs))).
  { apply in_map_iff. exists (nid, (k, c)). split; [reflexivity|exact Hin]. }
  destruct (map (fun nc => (site_id (fst nc), fst (snd nc))) (combine (seq 0 (length cs)) cs)) as [|x xs] eqn:Em; [contradiction|].
  cbn [bind]. unfold read_coeffs.
  destruct (foldM_err (fun _ => True) (fun d ts => match find_coef js (fst ts) with
                     | None => Err KeyError
                     | Some j => y <- read_coef zero parse j ;; Ok (dset d (snd ts) y)
                     end) (x :: xs) ([] : dict coord (ten R)) (site_id nid, k)) as [e He].
  - exact Hmap.
  - exact I.
  - auto.
  - intros d _. cbn [fst snd]. rewrite Hfind, Herr. cbn. eauto.
  - rewrite He. cbn. eauto. Qed.

(** ** auxiliary indices of different sizes *)
Lemma read_elem_sizes m T p a b c d j mt' : twf T -> tdims T = [p; a; b; c; d] -> b <= a -> c <= a -> d <= a ->
  write_elem is_zero fmt fmtc (map S [0;1;2;3]) (m, TReal T) = Ok j -> read_elem zero parse j = Ok mt' ->
  m_meta (fst mt') = m_meta m /\ exists T', snd mt' = TReal T' /\ enlarged zero a T T'.
Proof. intros Hw Hd Hb Hc He Hj Hr.
  destruct (elem_roundtrip zero is_zero fmt parse fmtc parse_fmt fmt_token is_zero_spec [0;1;2;3] m T p a b c d
    (Permutation_refl _) Hw Hd) as (j2 & T' & Hj2 & Hr2 & Hw' & Hd' & Hg).
  { intros ix v Hv _. apply tget_range in Hv; [|exact Hw]. rewrite Hd in Hv. unfold addresses.
    inversion Hv as [|? ? ? ? K0 V0]; subst. inversion V0 as [|? ? ? ? K1 V1]; subst. inversion V1 as [|? ? ? ? K2 V2]; subst.
    inversion V2 as [|? ? ? ? K3 V3]; subst. inversion V3 as [|? ? ? ? K4 V4]; subst. inversion V4; subst.
    repeat constructor; lia. }
  assert (j2 = j) by congruence. subst j2. rewrite Hr in Hr2. injection Hr2; intros ->. cbn [fst snd m_meta]. split; [reflexivity|].
  exists T'. split; [reflexivity|]. split; [exact Hw'|]. rewrite Hd'. split; [rewrite Hd; reflexivity|].
  intros ix Hx. assert (Hl := in_range_length _ _ Hx). cbn in Hl. specialize (Hg ix Hl). rewrite pick_default in Hg by exact Hl.
  apply Hg; exact Hx. Qed.

Theorem sizes_enlarged elem coeffs st j st' seq' :
  (forall mt, In mt elem -> exists T p a b c d, snd mt = TReal T /\ twf T /\ tdims T = [p; a; b; c; d] /\ b <= a /\ c <= a /\ d <= a) ->
  new elem coeffs = Ok st -> write [0;1;2;3] false st = Ok j -> read seq' j = Ok st' ->
  Forall2 (fun mt mt' => m_meta (fst mt') = m_meta (fst mt) /\ exists T T', snd mt = TReal T /\ snd mt' = TReal T' /\
     enlarged zero (nth 1 (tdims T) 0) T T') (s_elem st) (s_elem st').
Proof. intros He Hst Hw Hr.
  assert (Hse : s_elem st = elem). { unfold lcs_new in Hst. bind_inv Hst. bind_inv Hst. inv Hst. reflexivity. }
  unfold write_lc in Hw. bind_inv Hw. rename a into es. bind_inv Hw. injection Hw; clear Hw; intros <-. rewrite Hse in *.
  unfold read_lc in Hr. cbn [jl_elem jl_map jl_coeffs key bind] in Hr. bind_inv Hr. rename a0 into elem'. bind_inv Hr.
  assert (Hel : s_elem st' = elem'). { unfold lcs_new in Hr. bind_inv Hr. bind_inv Hr. inv Hr. reflexivity. }
  rewrite Hel. clear -He Ha Ha1 parse_fmt fmt_token is_zero_spec. revert es elem' Ha Ha1. induction elem as [|[m t] l IH]; intros es elem' Hw Hr.
  - cbn in Hw. inv Hw. cbn in Hr. inv Hr. constructor.
  - cbn [mapM] in Hw. bind_inv Hw. bind_inv Hw. inv Hw. cbn [mapM] in Hr. bind_inv Hr. bind_inv Hr. inv Hr.
    constructor; [|eapply IH; [intros; apply He; right; assumption|eassumption|eassumption]].
    destruct (He (m, t) (or_introl eq_refl)) as (T & p & x & y & z & w & Ht & HwT & Hd & H1 & H2 & H3). cbn in Ht; subst t.
    destruct (read_elem_sizes m T p x y z w _ _ HwT Hd H1 H2 H3 Ha Ha1) as (Hm & T' & HT' & Hen).
    split; [exact Hm|]. exists T, T'. split; [reflexivity|]. split; [exact HT'|]. rewrite Hd. exact Hen. Qed.

(** an element outside of the box given by the second index *)
Lemma norm_indices_out dims ix : length ix = length dims -> ~ in_range dims ix ->
  exists e, norm_indices dims (map Z.of_nat ix) = Err e.
Proof. revert ix. induction dims as [|d ds IH]; intros [|i ix] Hl Hn; try discriminate.
  - exfalso; apply Hn; constructor.
  - cbn [map norm_indices]. destruct (norm_index d (Z.of_nat i)) as [k|e] eqn:E; cbn [bind]; [|eauto].
    assert (Hi : i < d).
    { unfold norm_index in E. destruct ((0 <=? Z.of_nat i) && (Z.of_nat i <? Z.of_nat d))%Z eqn:E1; [lia|].
      destruct ((- Z.of_nat d <=? Z.of_nat i) && (Z.of_nat i <? 0))%Z eqn:E2; [lia|discriminate]. }
    destruct (IH ix) as [e He]; [cbn in Hl; congruence|intros Hx; apply Hn; constructor; assumption|].
    rewrite He. cbn. eauto. Qed.

Lemma basis_real_dims X e X' : basis_real parse 5 X e = Ok X' -> tdims X' = tdims X.
Proof. unfold basis_real. intros Hb. bind_inv Hb. bind_inv Hb. bind_inv Hb. unfold tupdate in Hb. bind_inv Hb. inv Hb. reflexivity. Qed.

Theorem sizes_raises st m T p a b c d ix v j seq' nrm : In (m, TReal T) (s_elem st) -> twf T -> tdims T = [p; a; b; c; d] ->
  tget T ix = Some v -> v <> zero -> ~ addresses [p; a; a; a; a] ix ->
  write [0;1;2;3] nrm st = Ok j -> exists e, read seq' j = Err e.
Proof. intros Hi Hw Hd Hv Hz Hout Hwr. unfold write_lc in Hwr. bind_inv Hwr. rename a0 into es. bind_inv Hwr. inv Hwr.
  unfold read_lc. cbn [jl_elem bind]. destruct (mapM_In _ _ _ _ Ha Hi) as (je & Hje & Hin).
  assert (He : exists e, read_elem zero parse je = Err e).
  { rewrite (write_elem_real is_zero fmt fmtc [0;1;2;3] m T p a b c d (Permutation_refl _) Hw Hd) in Hje. injection Hje; intros <-.
    unfold read_elem, loc_dtype. cbn [je_dtype je_meta je_phys je_aux je_entries key bind].
    replace (eqb "float64"%string "complex128"%string) with false by reflexivity.
    replace (eqb "float64"%string "float64"%string) with true by reflexivity. cbn [bind].
    assert (Hl : length ix = 5). { apply tget_range in Hv; [|exact Hw]. rewrite Hd in Hv. exact (in_range_length _ _ Hv). }
    unfold read_sparse. cbn [length].
    destruct (foldM_err (fun X => tdims X = [p; a; a; a; a]) (basis_real parse 5)
      (map (fun e => line (pick [0;1;2;3] (fst e)) (fmt (snd e))) (filter (fun e => negb (is_zero (snd e))) (telts T)))
      (tzeros zero [p; a; a; a; a]) (line ix (fmt v))) as [e He].
    - apply in_map_iff. exists (ix, v). cbn [fst snd]. rewrite pick_default by exact Hl. split; [reflexivity|].
      apply filter_In. split; [apply dget_In; exact Hv|]. cbn [snd]. apply negb_true_iff, not_true_iff_false.
      intros Hx. apply is_zero_spec in Hx. contradiction.
    - reflexivity.
    - intros s x s' Hs _ Hb. rewrite (basis_real_dims _ _ _ Hb). exact Hs.
    - intros X HX. unfold basis_real, line. cbn [append].
      rewrite split_sp_join; [|destruct ix; discriminate|apply forallb_no_ws_print].
      rewrite split_sp_one by (apply token_no_ws, fmt_token).
      rewrite firstn_exact by (now rewrite map_length).
      rewrite (mapM_int_of _ _ (Forall2_print ix)). cbn [bind].
      unfold tok_at. rewrite nth_error_app2 by (rewrite map_length; lia).
      rewrite map_length, Hl, Nat.sub_diag. cbn [nth_error bind]. unfold float_of; rewrite parse_fmt. cbn [bind].
      unfold tupdate. rewrite HX. destruct (norm_indices_out [p; a; a; a; a] ix Hl Hout) as [e ->]. cbn. eauto.
    - rewrite He. cbn. eauto. }
  destruct He as [e He]. destruct (mapM_err (read_elem zero parse) es je e Hin He) as [e' ->]. cbn. eauto. Qed.

(** ** bond-projector states *)
Lemma bonds_roundtrip (bond : list (lmeta * ten R)) : (forall mt, In mt bond -> square2 (snd mt)) ->
  exists bs bond', mapM (write_bond is_zero fmt fmtc) bond = Ok bs /\ mapM (read_bond zero parse) bs = Ok bond' /\
    Forall2 (rel eq) bond bond'.
Proof. induction bond as [|[m t] l IH]; intros Hl.
  - exists [], []. repeat split; constructor.
  - destruct (Hl (m, t) (or_introl eq_refl)) as (T & a & Ht & Hd & Hw). cbn in Ht; subst t.
    destruct (bond_roundtrip zero is_zero fmt parse fmtc parse_fmt fmt_token is_zero_spec m T a Hw Hd) as (j & Hj & Hr).
    destruct (IH (fun mt Hi => Hl mt (or_intror Hi))) as (bs & l' & Hbs & Hl' & Hf).
    exists (j :: bs), ((mkM (m_meta m) [], TReal T) :: l'). cbn [mapM]. rewrite Hj, Hr. cbn [bind]. rewrite Hbs, Hl'. cbn [bind].
    split; [reflexivity|]. split; [reflexivity|]. constructor; [split; reflexivity|exact Hf]. Qed.

Notation bpnew := (bps_new zero one add mul sub).

Lemma bpnew_meta l l' b b' cA cb st : Forall2 (rel eq) l l' -> Forall2 (rel eq) b b' -> bpnew l b cA cb = Ok st ->
  bpnew l' b' cA cb = Ok (mkBP l' b' cA cb (b_state st)).
Proof. intros Hf Hg. unfold bps_new. intros Hs. bind_inv Hs. rename a into ts.
  destruct (rel_stacked zero one add mul sub eq ltac:(congruence) _ _ _ Hf Ha) as (ts' & -> & Ht). apply Forall2_eq in Ht; subst ts'. cbn [bind].
  assert (Hb : map snd b' = map snd b).
  { clear -Hg. induction Hg as [|x y l l' [_ He] Hf IH]; cbn; [reflexivity|]. now rewrite He, IH. }
  rewrite Hb. bind_inv Hs. rewrite Ha0. cbn [bind]. bind_inv Hs. rewrite Ha1. cbn [bind]. bind_inv Hs. rewrite Ha2. cbn [bind].
  bind_inv Hs. rewrite Ha3. cbn [bind]. bind_inv Hs. rewrite Ha4. cbn [bind]. bind_inv Hs. rewrite Ha5. cbn [bind].
  inv Hs. reflexivity. Qed.

Theorem bp_roundtrip site bond cA cb st seq' :
  (forall mt, In mt site -> square (snd mt)) -> (forall mt, In mt bond -> square2 (snd mt)) -> vector cA -> vector cb ->
  bpnew site bond cA cb = Ok st ->
  exists j st', write_bp is_zero fmt fmtc normalized normalized4 [0;1;2;3] false st = Ok j /\
    read_bp zero one add mul sub parse seq' j = Ok st' /\
    same_elem (b_site_elem st) (b_site_elem st') /\ same_elem (b_bond_elem st) (b_bond_elem st') /\
    b_site_c st' = b_site_c st /\ b_bond_c st' = b_bond_c st /\ b_state st' = b_state st.
Proof. intros He Hb (n & l & -> & Hl) (n' & l' & -> & Hl') Hst.
  assert (Hc : b_site_elem st = site /\ b_bond_elem st = bond /\ b_site_c st = TReal (mkT [n] l) /\ b_bond_c st = TReal (mkT [n'] l')).
  { unfold bps_new in Hst. do 7 bind_inv Hst. inv Hst. repeat split. }
  destruct Hc as (Hc1 & Hc2 & Hc3 & Hc4).
  destruct (elems_roundtrip [0;1;2;3] site (Permutation_refl _) He) as (es & site' & Hes & Hrs & Hf). apply (reo_default _ _ He) in Hf.
  destruct (bonds_roundtrip bond Hb) as (bs & bond' & Hbs & Hrb & Hg).
  destruct (coef_roundtrip zero fmt parse fmtc parse_fmt fmt_token "site" n l Hl) as (j1 & Hj1 & _ & Hr1).
  destruct (coef_roundtrip zero fmt parse fmtc parse_fmt fmt_token "bond" n' l' Hl') as (j2 & Hj2 & _ & Hr2).
  exists (mkJB (Some es) (Some bs) (Some j1) (Some j2) None), (mkBP site' bond' (TReal (mkT [n] l)) (TReal (mkT [n'] l')) (b_state st)).
  split; [unfold write_bp; rewrite Hc1, Hc2, Hc3, Hc4, Hes; cbn [bind]; rewrite Hbs; cbn [bind]; rewrite Hj1; cbn [bind]; rewrite Hj2; reflexivity|].
  split.
  - unfold read_bp. cbn [jb_site jb_bond jb_site_c jb_bond_c key bind]. rewrite Hrs; cbn [bind]. rewrite Hrb; cbn [bind].
    rewrite Hr1; cbn [bind]. rewrite Hr2; cbn [bind]. apply (bpnew_meta _ _ _ _ _ _ _ Hf Hg Hst).
  - cbn [b_site_elem b_bond_elem b_site_c b_bond_c b_state]. rewrite Hc1, Hc2, Hc3, Hc4.
    split; [apply rel_same; exact Hf|]. split; [apply rel_same; exact Hg|]. repeat split. Qed.

(** the constructor refuses A_1 + i A_2 with real bond tensors *)
Theorem bp_complex_raises site bond cA cb m t : In (m, t) site -> dget (m_meta m) "pg"%string = Some "A_2"%string ->
  (forall mt, In mt bond -> ten_cplx (snd mt) = false) -> exists e, bpnew site bond cA cb = Err e.
Proof. intros Hi Hm Hb. unfold bps_new. destruct (stacked zero one add mul sub site) as [ts|e] eqn:Es; cbn [bind]; [|eauto].
  assert (Hc : stack_cplx ts = true).
  { unfold stacked in Es. bind_inv Es. rename a into irr.
    assert (Hin : In ("A_2"%string, (m, t)) (combine irr site)).
    { apply mapM_ok in Ha. apply In_nth_error in Hi. destruct Hi as [k Hk].
      destruct (Forall2_nth_error_l _ _ _ _ _ Ha Hk) as (i & Hi & Hpg). cbn in Hpg. unfold pg, dget_exn in Hpg. rewrite Hm in Hpg. inv Hpg.
      clear -Hk Hi. revert k irr Hk Hi. induction site as [|x l IH]; intros [|k] [|y irr] Hk Hi; try discriminate; cbn in *.
      - left; congruence.
      - right; eapply IH; eassumption. }
    destruct (set_is irr ["A_1"%string]) eqn:E1.
    - exfalso. unfold set_is in E1. apply andb_true_iff in E1. destruct E1 as [E1 _]. rewrite forallb_forall in E1.
      assert (Hx := E1 "A_2"%string (in_combine_l _ _ _ _ Hin)). cbn in Hx. discriminate.
    - destruct (set_is irr ["A_1"%string; "A_2"%string]); [|discriminate]. inv Es. unfold stack_cplx. rewrite existsb_app.
      apply orb_true_iff. right. apply existsb_exists. exists (times_i zero one add mul sub t). split; [|reflexivity].
      apply in_map. apply in_map_iff. exists ("A_2"%string, (m, t)). split; [reflexivity|]. apply filter_In. split; [exact Hin|reflexivity]. }
  rewrite Hc. destruct (stack_shape ts) as [dims|e]; cbn [bind]; [|eauto]. destruct (stack_shape (map snd bond)) as [bdims|e] eqn:Eb; cbn [bind]; [|eauto].
  destruct (combine_site zero add mul sub 5 true ts cA) as [A|e]; cbn [bind]; [|eauto].
  unfold combine_site at 1. rewrite Eb. cbn [bind].
  replace (stack_cplx (map snd bond)) with false; [cbn; eauto|].
  symmetry. unfold stack_cplx. apply not_true_iff_false. intros Hx. apply existsb_exists in Hx. destruct Hx as (x & Hx & Hxc).
  apply in_map_iff in Hx. destruct Hx as (mt & <- & Hx). rewrite (Hb _ Hx) in Hxc. discriminate. Qed.
End P.
