(** Proofs about the text part of the table parser. *)
From Coq Require Import Ascii Lia.
From Verif Require Import Base BaseLemmas Text TextLemmas Tensor TensorLemmas SymTen SymTenSpec.
Open Scope char_scope.
Open Scope list_scope.

Lemma lacks_app cs a b : lacks cs (a ++ b) <-> lacks cs a /\ lacks cs b.
Proof.
  unfold lacks. split.
  - intros H. split; intros c Hc; apply H, in_or_app; auto.
  - intros [H1 H2] c Hc. apply in_app_or in Hc. destruct Hc; auto.
Qed.
Lemma lacks_cons cs c s : lacks cs (c :: s) <-> ~ In c cs /\ lacks cs s.
Proof.
  unfold lacks. split.
  - intros H. split; [apply H; now left|]. intros d Hd. apply H. now right.
  - intros [H1 H2] d [<- | Hd]; auto.
Qed.
Lemma lacks_sub cs cs' s : (forall c, In c cs' -> In c cs) -> lacks cs s -> lacks cs' s.
Proof. intros H L c Hc Hi. exact (L c Hc (H c Hi)). Qed.

(** ** find *)
Lemma find_nat_char c s t : lacks [c] s -> find_nat [c] (s ++ c :: t) = Some (length s).
Proof.
  induction s as [|a s IH]; intros L.
  - cbn. now rewrite Ascii.eqb_refl.
  - apply lacks_cons in L. destruct L as [L1 L2]. cbn [app find_nat prefix length].
    replace (Ascii.eqb c a) with false; [cbn [andb]; now rewrite IH|].
    symmetry. apply Ascii.eqb_neq. intros ->. apply L1. now left.
Qed.
Lemma find_nat_two c d s t : lacks [c] s -> find_nat [c; d] (s ++ c :: d :: t) = Some (length s).
Proof.
  induction s as [|a s IH]; intros L.
  - cbn. now rewrite !Ascii.eqb_refl.
  - apply lacks_cons in L. destruct L as [L1 L2]. cbn [app find_nat prefix length].
    replace (Ascii.eqb c a) with false; [cbn [andb]; now rewrite IH|].
    symmetry. apply Ascii.eqb_neq. intros ->. apply L1. now left.
Qed.

(** ** split *)
Definition sep_free (sep x : text) : Prop := forall a c u, x = a ++ c :: u ->
  (forall rest, prefix sep (c :: u ++ sep ++ rest) = false) /\ prefix sep (c :: u) = false.
Lemma sep_free_tl sep c x : sep_free sep (c :: x) -> sep_free sep x.
Proof. intros H a d u ->. exact (H (c :: a) d u eq_refl). Qed.
Lemma prefix_app p r : prefix p (p ++ r) = true.
Proof. induction p as [|a p IH]; [reflexivity|]. cbn. now rewrite Ascii.eqb_refl. Qed.
Lemma skip_go sep : forall (s t : text) acc, split_go sep (s ++ t) (length s) acc = split_go sep t 0 acc.
Proof. induction s as [|c s IH]; intros t acc; [reflexivity|]. cbn. apply IH. Qed.
Lemma split_go_cons sep0 sep' x : let sep := sep0 :: sep' in sep_free sep x -> forall rest acc,
  split_go sep (x ++ sep ++ rest) 0 acc = rev (rev x ++ acc) :: split_go sep rest 0 [].
Proof.
  intros sep. induction x as [|c x IH]; intros F rest acc.
  - subst sep. change ([] ++ (sep0 :: sep') ++ rest) with (sep0 :: (sep' ++ rest)). cbn [split_go].
    change (sep0 :: sep' ++ rest) with ((sep0 :: sep') ++ rest). rewrite prefix_app.
    cbn [length rev app]. rewrite Nat.sub_0_r || rewrite Nat.sub_succ, Nat.sub_0_r. now rewrite skip_go.
  - change ((c :: x) ++ sep ++ rest) with (c :: x ++ sep ++ rest). cbn [split_go].
    destruct (F [] c x eq_refl) as [-> _]. rewrite IH by (eapply sep_free_tl; eauto).
    cbn [rev]. now rewrite <- app_assoc.
Qed.
Lemma split_go_last sep0 sep' x : let sep := sep0 :: sep' in sep_free sep x -> forall acc,
  split_go sep x 0 acc = [rev (rev x ++ acc)].
Proof.
  intros sep. induction x as [|c x IH]; intros F acc; [reflexivity|].
  cbn [split_go]. destruct (F [] c x eq_refl) as [_ ->]. rewrite IH by (eapply sep_free_tl; eauto).
  cbn [rev]. now rewrite <- app_assoc.
Qed.
Lemma split_join sep0 sep' l : let sep := sep0 :: sep' in l <> [] -> Forall (sep_free sep) l -> split sep (join sep l) = l.
Proof.
  intros sep Hn HF. unfold split. induction l as [|x l IH]; [congruence|].
  inversion HF as [|? ? Hx Hl]; subst. destruct l as [|y l].
  - cbn [join]. subst sep. rewrite split_go_last by assumption. now rewrite app_nil_r, rev_involutive.
  - change (join sep (x :: y :: l)) with (x ++ sep ++ join sep (y :: l)). subst sep. rewrite split_go_cons by assumption.
    rewrite app_nil_r, rev_involutive. f_equal. apply IH; [congruence | assumption].
Qed.
Lemma sep_free_comma x : lacks (txt ",") x -> sep_free (txt ",") x.
Proof.
  intros L a c u ->. apply lacks_app in L. destruct L as [_ L]. apply lacks_cons in L. destruct L as [L _].
  assert (E : Ascii.eqb "," c = false) by (apply Ascii.eqb_neq; intros <-; apply L; now left).
  change (txt ",") with [","]. split; [intros rest|]; cbn [prefix]; now rewrite E.
Qed.
Lemma sep_free_item x : (forall u v, x <> u ++ txt ", '" ++ v) -> sep_free (txt ", '") x.
Proof.
  intros H a c u ->.
  assert (E : forall w, prefix (txt ", '") w = true -> exists v, w = txt ", '" ++ v).
  { change (txt ", '") with [","; " "; "'"]. intros w. destruct w as [|w1 [|w2 [|w3 w]]]; cbn [prefix]; try discriminate.
    - now rewrite andb_false_r.
    - now rewrite !andb_false_r.
    - rewrite !andb_true_iff, !Ascii.eqb_eq. intros (<- & <- & <- & _). now exists w. }
  split.
  - intros rest. destruct u as [|u1 [|u2 u]].
    + change (txt ", '") with [","; " "; "'"]. cbn [prefix app]. change (Ascii.eqb " " ",") with false. now rewrite andb_false_r.
    + change (txt ", '") with [","; " "; "'"]. cbn [prefix app]. change (Ascii.eqb "'" ",") with false. now rewrite !andb_false_r.
    + destruct (prefix _ _) eqn:P; [|reflexivity]. exfalso. apply (H a u). f_equal.
      change (txt ", '") with [","; " "; "'"] in P |- *. cbn [prefix app] in P. rewrite !andb_true_iff, !Ascii.eqb_eq in P. destruct P as (<- & <- & <- & _). reflexivity.
  - destruct (prefix _ _) eqn:P; [|reflexivity]. exfalso. destruct (E _ P) as [v Hv]. apply (H a v). now rewrite Hv.
Qed.

(** ** slices *)
Lemma clamp_in n i : (0 <= i <= n)%Z -> clamp n i = Z.to_nat i.
Proof. intros H. unfold clamp. destruct (Z.ltb_spec i 0); lia. Qed.
Lemma slice_mid (a b c : text) (i j : Z) : i = slen a -> j = Z.add (slen a) (slen b) -> slice (a ++ b ++ c) i j = b.
Proof.
  intros -> ->. unfold slice. rewrite !clamp_in by (unfold slen; rewrite !app_length; lia). unfold slen.
  replace (Z.to_nat (Z.of_nat (length a) + Z.of_nat (length b)) - Z.to_nat (Z.of_nat (length a)))%nat with (length b) by lia.
  rewrite Nat2Z.id, skipn_app, skipn_all, Nat.sub_diag. cbn [app skipn].
  now rewrite firstn_app, firstn_all, Nat.sub_diag, app_nil_r.
Qed.
Lemma slice_end (a b : text) (i : Z) : i = slen a -> slice (a ++ b) i (slen (a ++ b)) = b.
Proof.
  intros ->. rewrite <- (app_nil_r b) at 1. apply slice_mid; [reflexivity|]. unfold slen. rewrite app_length. lia.
Qed.
Lemma slice_minus1 (a b : text) (c : ascii) (i : Z) : i = slen a -> slice (a ++ b ++ [c]) i (-1) = b.
Proof.
  intros ->. rewrite <- (slice_mid a b [c] (slen a) (Z.add (slen a) (slen b)) eq_refl eq_refl) at 2.
  unfold slice. f_equal. f_equal. unfold clamp, slen. rewrite !app_length. cbn [length].
  replace (-1 <? 0)%Z with true by reflexivity.
  replace (Z.of_nat (length a) + Z.of_nat (length b) <? 0)%Z with false by (symmetry; apply Z.ltb_ge; lia). lia.
Qed.

(** ** strip *)
Lemma lstrip_app a b : all_ws a -> lstrip (a ++ b) = lstrip b.
Proof.
  induction a as [|c a IH]; intros H; [reflexivity|]. cbn. rewrite (H c) by (now left).
  apply IH. intros d Hd. apply H. now right.
Qed.
Lemma all_ws_rev a : all_ws a -> all_ws (rev a).
Proof. intros H c Hc. apply H. now apply in_rev. Qed.
Lemma strip_spec a b c : all_ws a -> all_ws c -> trimmed b -> strip (a ++ b ++ c) = b.
Proof.
  intros Ha Hc [T1 T2]. unfold strip. rewrite lstrip_app by assumption.
  destruct b as [|x b].
  - cbn [app]. replace c with (c ++ []) by apply app_nil_r. now rewrite lstrip_app.
  - assert (E : lstrip ((x :: b) ++ c) = (x :: b) ++ c) by (cbn; now rewrite (T1 x b eq_refl)). rewrite E.
    rewrite rev_app_distr. rewrite lstrip_app by (now apply all_ws_rev).
    destruct (exists_last (l:=x :: b)) as (b' & y & Hy); [discriminate|]. rewrite Hy, rev_app_distr. cbn.
    rewrite (T2 y b' Hy). cbn. now rewrite rev_involutive.
Qed.
Lemma lstrip_blank_spec a b : (forall c, In c a -> c = " " \/ c = "009") -> (forall c u, b = c :: u -> c <> " " /\ c <> "009") ->
  lstrip_blank (a ++ b) = b.
Proof.
  induction a as [|c a IH]; intros Ha Hb.
  - destruct b as [|c b]; [reflexivity|]. cbn. destruct (Hb c b eq_refl) as [H1 H2].
    apply Ascii.eqb_neq in H1, H2. now rewrite H1, H2.
  - cbn. assert (E : Ascii.eqb c " " || Ascii.eqb c "009" = true).
    { apply orb_true_iff. rewrite !Ascii.eqb_eq. apply Ha. now left. }
    rewrite E. apply IH; [|assumption]. intros d Hd. apply Ha. now right.
Qed.

(** ** descriptions *)
Lemma field_parse f (m : dict text text) : field_wf f ->
  (let i := find (txt ":") (field_text f) in
   dset m (slice (field_text f) 0 (i - 1)) (strip (slice (field_text f) (i + 1) (slen (field_text f))))) = dset m (f_key f) (f_val f).
Proof.
  intros (K & P1 & P2 & T & _ & _).
  assert (E : field_text f = (f_key f ++ ["'"]) ++ ":" :: (f_pre f ++ f_val f ++ f_post f)).
  { unfold field_text. now rewrite <- app_assoc. }
  assert (F : find (txt ":") (field_text f) = Z.of_nat (length (f_key f) + 1)).
  { unfold find. rewrite E. change (txt ":") with [":"]. rewrite find_nat_char.
    - now rewrite app_length.
    - apply lacks_app. split; [exact K|]. intros c [<- | []] [H|[]]. discriminate H. }
  cbv zeta. rewrite F.
  assert (S1 : slice (field_text f) 0 (Z.of_nat (length (f_key f) + 1) - 1) = f_key f).
  { unfold field_text. apply (slice_mid [] (f_key f)); unfold slen; cbn [length]; lia. }
  assert (S2 : slice (field_text f) (Z.of_nat (length (f_key f) + 1) + 1) (slen (field_text f)) = f_pre f ++ f_val f ++ f_post f).
  { replace (field_text f) with ((f_key f ++ txt "':") ++ f_pre f ++ f_val f ++ f_post f) by (unfold field_text; now rewrite <- app_assoc).
    apply slice_end. unfold slen. rewrite app_length. cbn. lia. }
  rewrite S1, S2. now rewrite strip_spec.
Qed.
Lemma describes_fold fs : forall (m : dict text text) k,
  dget (fold_left (fun m f => dset m (f_key f) (f_val f)) fs m) k = match lookup k fs with Some v => Some v | None => dget m k end.
Proof.
  induction fs as [|f fs IH]; intros m k; [reflexivity|]. cbn [fold_left lookup]. rewrite IH.
  destruct (lookup k fs); [reflexivity|]. destruct (list_eq_dec ascii_dec (f_key f) k) as [<- |Hn].
  - now rewrite dget_dset_same.
  - now rewrite dget_dset_other by congruence.
Qed.
Lemma parse_meta_spec fs : fs <> [] -> Forall field_wf fs -> forall k,
  dget (parse_meta (txt "'" ++ join (txt ", '") (map field_text fs))) k = lookup k fs.
Proof.
  intros Hn HF k. unfold parse_meta. rewrite slice_end by reflexivity. change (txt ", '") with ("," :: [" "; "'"]).
  rewrite split_join.
  - assert (E : forall m, fold_left (fun (m : dict text text) f => let i := find (txt ":") f in
       dset m (slice f 0 (i - 1)) (strip (slice f (i + 1) (slen f)))) (map field_text fs) m
       = fold_left (fun m f => dset m (f_key f) (f_val f)) fs m).
    { clear Hn. induction HF as [|f fs Hf HF IH]; intros m; [reflexivity|]. cbn [map fold_left]. rewrite field_parse by assumption. apply IH. }
    rewrite E, describes_fold. now destruct (lookup k fs).
  - destruct fs; [congruence | discriminate].
  - apply Forall_forall. intros x Hx. apply in_map_iff in Hx. destruct Hx as (f & <- & Hf).
    rewrite Forall_forall in HF. apply sep_free_item. apply (HF f Hf).
Qed.

(** ** elements *)
Lemma ws_lacks s cs : all_ws s -> (forall c, In c cs -> is_ws c = false) -> lacks cs s.
Proof. intros H1 H2 c Hc Hi. specialize (H1 c Hc). rewrite (H2 c Hi) in H1. discriminate. Qed.
Definition dig (c : ascii) : bool := Nat.leb 48 (nat_of_ascii c) && Nat.leb (nat_of_ascii c) 57.
Lemma digits_dig s : digits s = true -> forall c, In c (txt s) -> dig c = true.
Proof.
  induction s as [|d s IH]; cbn [digits]; intros H c; [intros []|]. apply andb_prop in H. destruct H as [H1 H2].
  intros [<- |Hc]; [exact H1 | exact (IH H2 c Hc)].
Qed.
Lemma dig_lacks s cs : digits s = true -> (forall c, In c cs -> dig c = false) -> lacks cs (txt s).
Proof. intros H H2 c Hc Hi. pose proof (digits_dig s H c Hc) as H0. rewrite (H2 c Hi) in H0. discriminate. Qed.
Lemma dig_ws c : dig c = true -> is_ws c = false.
Proof.
  unfold dig. rewrite andb_true_iff, !Nat.leb_le. intros [H1 H2]. unfold is_ws. cbv zeta.
  repeat (apply orb_false_iff; split).
  - apply Nat.eqb_neq. lia.
  - apply andb_false_iff. right. apply Nat.leb_gt. lia.
  - apply andb_false_iff. right. apply Nat.leb_gt. lia.
Qed.
Lemma txt_string s : string_of_list_ascii (txt s) = s.
Proof. apply string_of_list_ascii_of_string. Qed.
Lemma trimmed_print n : trimmed (txt (print_nat n)).
Proof.
  pose proof (digits_dig _ (digits_print n)) as H. split; intros c u E; apply dig_ws, H; rewrite E; [now left|].
  apply in_or_app. right. now left.
Qed.
Lemma int_index x : index_wf x -> int_ (index_text x) = Ok (Z.of_nat (x_val x)).
Proof.
  intros [H1 H2]. unfold int_, index_text. rewrite strip_spec by auto using trimmed_print. now rewrite txt_string, parse_print.
Qed.
Lemma index_lacks x cs : index_wf x -> (forall c, In c cs -> is_ws c = false /\ dig c = false) -> lacks cs (index_text x).
Proof.
  intros [H1 H2] H. apply lacks_app. split; [|apply lacks_app; split].
  - apply ws_lacks; [exact H1|]. intros c Hc. apply (H c Hc).
  - apply dig_lacks; [apply digits_print|]. intros c Hc. apply (H c Hc).
  - apply ws_lacks; [exact H2|]. intros c Hc. apply (H c Hc).
Qed.
Lemma join_lacks cs sep l : lacks cs sep -> Forall (lacks cs) l -> lacks cs (join sep l).
Proof.
  intros Hs H. induction H as [|x l Hx H IH]; [intros c []|]. destruct l as [|y l]; [exact Hx|].
  change (join sep (x :: y :: l)) with (x ++ sep ++ join sep (y :: l)). rewrite !lacks_app. auto.
Qed.
Definition ixs_text (l : list index) : text := join (txt ",") (map index_text l).
Lemma ixs_lacks l cs : Forall index_wf l -> (forall c, In c cs -> is_ws c = false /\ dig c = false /\ c <> ",") -> lacks cs (ixs_text l).
Proof.
  intros HF H. apply join_lacks.
  - intros c [<- | []] Hi. now apply (H ",").
  - apply Forall_forall. intros y Hy. apply in_map_iff in Hy. destruct Hy as (x & <- & Hx). rewrite Forall_forall in HF.
    apply index_lacks; [auto|]. intros c Hc. destruct (H c Hc) as (? & ? & _). auto.
Qed.
(** the text between the outer parentheses of an element *)
Definition inner (e : element) : text := txt "(" ++ ixs_text (l_ix e) ++ txt ")," ++ (l_pre e ++ l_val e).
Lemma inner_text e : element_text e = txt "(" ++ inner e ++ txt ")" ++ l_sep e.
Proof. unfold element_text, inner, ixs_text. cbn [txt list_ascii_of_string app]. rewrite <- !app_assoc. cbn [app]. now rewrite <- !app_assoc. Qed.
Section Elem.
Context {V : Type} (eval_ : text -> option V).
Lemma parse_elem_spec e : element_wf e ->
  parse_elem eval_ (inner e ++ txt ")") =
  match eval_ (l_val e) with Some v => Ok (map (fun x => Z.of_nat (x_val x)) (l_ix e), v) | None => Err PyException end.
Proof.
  intros (Hn & HF & Hp & Hv & _). unfold parse_elem.
  assert (L : lacks [")"] (txt "(" ++ ixs_text (l_ix e))).
  { apply lacks_app. split; [intros c [<- |[]] [H|[]]; discriminate H|]. apply ixs_lacks; [exact HF|].
    intros c [<- |[]]. repeat split; try reflexivity. discriminate. }
  assert (F : find (txt "),") (inner e ++ txt ")") = slen (txt "(" ++ ixs_text (l_ix e))).
  { unfold find, inner. change (txt "),") with [")"; ","].
    replace ((txt "(" ++ ixs_text (l_ix e) ++ [")"; ","] ++ l_pre e ++ l_val e) ++ txt ")") with
      ((txt "(" ++ ixs_text (l_ix e)) ++ ")" :: "," :: (l_pre e ++ l_val e) ++ txt ")") by (rewrite <- !app_assoc; reflexivity).
    rewrite find_nat_two by exact L. reflexivity. }
  cbv zeta. rewrite F.
  assert (S1 : slice (inner e ++ txt ")") 1 (slen (txt "(" ++ ixs_text (l_ix e))) = ixs_text (l_ix e)).
  { unfold inner. rewrite <- !app_assoc. apply slice_mid; [reflexivity|]. unfold slen. rewrite app_length. lia. }
  assert (S2 : slice (inner e ++ txt ")") (slen (txt "(" ++ ixs_text (l_ix e)) + 2) (-1) = l_pre e ++ l_val e).
  { replace (inner e ++ txt ")") with ((txt "(" ++ ixs_text (l_ix e) ++ txt "),") ++ (l_pre e ++ l_val e) ++ [")"])
      by (unfold inner; rewrite <- !app_assoc; reflexivity).
    apply slice_minus1. unfold slen. rewrite !app_length. cbn [txt list_ascii_of_string length]. lia. }
  rewrite S1, S2, lstrip_blank_spec by assumption.
  unfold ixs_text. change (txt ",") with ("," :: []). rewrite split_join.
  - assert (M : mapM int_ (map index_text (l_ix e)) = Ok (map (fun x => Z.of_nat (x_val x)) (l_ix e))).
    { clear - HF. induction HF as [|x l Hx HF IH]; [reflexivity|]. cbn [map mapM]. rewrite int_index by assumption. cbn [bind].
      rewrite IH. reflexivity. }
    rewrite M. reflexivity.
  - destruct (l_ix e); [congruence | discriminate].
  - apply Forall_forall. intros y Hy. apply in_map_iff in Hy. destruct Hy as (x & <- & Hx). rewrite Forall_forall in HF.
    apply sep_free_comma. apply index_lacks; [auto|]. intros c [<- |[]]. split; reflexivity.
Qed.
End Elem.

Lemma scan_elem_plain c st : c <> "(" -> c <> ")" -> scan_elem st c = (fst (fst st), snd (fst st), snd st ++ [c]).
Proof.
  intros H1 H2. destruct st as [[raw lv] bf]. apply Ascii.eqb_neq in H1, H2. unfold scan_elem. now rewrite H1, H2.
Qed.
Lemma scan_balanced w : balanced w -> forall raw lv bf, (1 <= lv)%Z -> fold_left scan_elem w (raw, lv, bf) = (raw, lv, bf ++ w).
Proof.
  induction 1 as [|c s H1 H2 H IH|s t Hs IHs Ht IHt]; intros raw lv bf Hl.
  - now rewrite app_nil_r.
  - cbn [fold_left]. rewrite scan_elem_plain by assumption. cbn [fst snd]. rewrite IH by assumption. now rewrite <- app_assoc.
  - cbn [fold_left]. unfold scan_elem at 2. rewrite Ascii.eqb_refl. replace (lv =? 0)%Z with false by (symmetry; apply Z.eqb_neq; lia).
    rewrite fold_left_app, IHs by lia. cbn [fold_left]. unfold scan_elem at 2. change (Ascii.eqb ")" "(") with false. rewrite Ascii.eqb_refl.
    cbv zeta iota. replace (lv + 1 - 1)%Z with lv by lia. replace (lv =? 0)%Z with false by (symmetry; apply Z.eqb_neq; lia).
    rewrite IHt by lia. f_equal. now rewrite <- !app_assoc.
Qed.
Lemma balanced_lacks s : lacks (txt "()") s -> balanced s.
Proof.
  induction s as [|c s IH]; intros H; [constructor|]. apply lacks_cons in H. destruct H as [H1 H2].
  apply bal_char; [intros ->; apply H1; now left | intros ->; apply H1; right; now left | auto].
Qed.
Lemma balanced_app s t : balanced s -> balanced t -> balanced (s ++ t).
Proof.
  induction 1 as [|c s H1 H2 H IH|s u Hs IHs Hu IHu]; intros Ht; [exact Ht| |].
  - cbn. apply bal_char; auto.
  - cbn. rewrite <- app_assoc. cbn. apply bal_par; auto.
Qed.
Lemma balanced_inner e : element_wf e -> balanced (inner e).
Proof.
  intros (Hn & HF & Hp & Hv & Hb & _). unfold inner. cbn [txt list_ascii_of_string app]. apply bal_par.
  - apply balanced_lacks, ixs_lacks; [exact HF|]. intros c [<- |[<- |[]]]; repeat split; try reflexivity; discriminate.
  - apply bal_char; [discriminate|discriminate|]. apply balanced_app; [|exact Hb]. apply balanced_lacks.
    intros c Hc Hi. destruct (Hp c Hc) as [-> | ->]; destruct Hi as [H|[H|[]]]; discriminate H.
Qed.
Lemma scan_filler s raw bf : lacks (txt "()") s -> exists bf', fold_left scan_elem s (raw, 0%Z, bf) = (raw, 0%Z, bf').
Proof.
  revert bf. induction s as [|c s IH]; intros bf H; [now exists bf|]. apply lacks_cons in H. destruct H as [H1 H2].
  cbn [fold_left]. rewrite scan_elem_plain; [apply IH, H2| |]; intros ->; apply H1; [now left | right; now left].
Qed.
Lemma lacks4 s : lacks (txt "(){]") s -> lacks (txt "()") s.
Proof. apply lacks_sub. intros c [<- |[<- |[]]]; cbn; auto. Qed.
Lemma scan_element e raw bf : element_wf e -> exists bf',
  fold_left scan_elem (element_text e) (raw, 0%Z, bf) = (raw ++ [inner e ++ txt ")"], 0%Z, bf').
Proof.
  intros W. rewrite inner_text. cbn [txt list_ascii_of_string]. rewrite fold_left_app. cbn [fold_left]. unfold scan_elem at 2.
  rewrite Ascii.eqb_refl. cbn [Z.eqb Z.add]. rewrite fold_left_app, scan_balanced by (auto using balanced_inner; lia).
  rewrite fold_left_app. cbn [fold_left]. unfold scan_elem at 2. change (Ascii.eqb ")" "(") with false. rewrite Ascii.eqb_refl.
  cbn [Z.eqb Z.sub Z.add Z.opp Z.pos_sub app]. apply scan_filler, lacks4. apply W.
Qed.
Lemma scan_elements es : Forall element_wf es -> forall raw bf, exists bf',
  fold_left scan_elem (concat (map element_text es)) (raw, 0%Z, bf) = (raw ++ map (fun e => inner e ++ txt ")") es, 0%Z, bf').
Proof.
  induction 1 as [|e es He HF IH]; intros raw bf.
  - exists bf. cbn. now rewrite app_nil_r.
  - cbn [map concat]. rewrite fold_left_app. destruct (scan_element e raw bf He) as [b ->]. destruct (IH (raw ++ [inner e ++ txt ")"]) b) as [b' E].
    exists b'. rewrite E, <- app_assoc. reflexivity.
Qed.
Lemma raw_elems_spec first es : lacks (txt "(){]") first -> Forall element_wf es ->
  raw_elems (first ++ concat (map element_text es)) = map (fun e => inner e ++ txt ")") es.
Proof.
  intros H HF. unfold raw_elems. rewrite fold_left_app. destruct (scan_filler first [] [] (lacks4 _ H)) as [b ->].
  destruct (scan_elements es HF [] b) as [b' ->]. reflexivity.
Qed.

(** ** entries *)
Definition at0 (st : cstate) : Prop := c_level st = 0%Z /\ c_meta st = 0%Z /\ c_elem st = 0%Z.
Lemma class0 s : lacks (txt "(") s -> forall mt rt bf,
  fold_left scan_class s (Build_cstate mt rt 0 0 0 bf) = Build_cstate mt rt 0 0 0 bf.
Proof.
  induction s as [|c s IH]; intros H mt rt bf; [reflexivity|]. apply lacks_cons in H. destruct H as [H1 H2].
  cbn [fold_left]. unfold scan_class at 2. replace (Ascii.eqb c "(") with false
    by (symmetry; apply Ascii.eqb_neq; intros ->; apply H1; now left).
  cbn [Z.eqb Z.mul andb]. now apply IH.
Qed.
Lemma class1 s : lacks (txt "{[)") s -> forall mt rt bf,
  fold_left scan_class s (Build_cstate mt rt 1 0 0 bf) = Build_cstate mt rt 1 0 0 bf.
Proof.
  induction s as [|c s IH]; intros H mt rt bf; [reflexivity|]. apply lacks_cons in H. destruct H as [H1 H2].
  assert (E1 : Ascii.eqb c "{" = false) by (apply Ascii.eqb_neq; intros ->; apply H1; now left).
  assert (E2 : Ascii.eqb c "[" = false) by (apply Ascii.eqb_neq; intros ->; apply H1; right; now left).
  assert (E3 : Ascii.eqb c ")" = false) by (apply Ascii.eqb_neq; intros ->; apply H1; right; right; now left).
  cbn [fold_left]. unfold scan_class at 2. rewrite E1, E2, E3. 
  change (1 =? 0)%Z with false. change (1 =? 1)%Z with true. change (1 * 0 =? 1)%Z with false. change (1 * (1 - 0) * (1 - 0) =? 1)%Z with true.
  change (1 * (1 - 0) * 0 =? 1)%Z with false. cbn [andb]. now apply IH.
Qed.
Lemma class_meta s : lacks (txt "{}") s -> forall mt rt bf,
  fold_left scan_class s (Build_cstate mt rt 1 1 0 bf) = Build_cstate mt rt 1 1 0 (bf ++ s).
Proof.
  induction s as [|c s IH]; intros H mt rt bf; [now rewrite app_nil_r|]. apply lacks_cons in H. destruct H as [H1 H2].
  assert (E1 : Ascii.eqb c "{" = false) by (apply Ascii.eqb_neq; intros ->; apply H1; now left).
  assert (E2 : Ascii.eqb c "}" = false) by (apply Ascii.eqb_neq; intros ->; apply H1; right; now left).
  cbn [fold_left]. unfold scan_class at 2. rewrite E1, E2.
  change (1 =? 0)%Z with false. change (1 =? 1)%Z with true. change (1 * 1 =? 1)%Z with true. cbn [andb].
  rewrite IH by assumption. now rewrite <- app_assoc.
Qed.
Lemma class_elem s : lacks (txt "{]") s -> forall mt rt bf,
  fold_left scan_class s (Build_cstate mt rt 1 0 1 bf) = Build_cstate mt rt 1 0 1 (bf ++ s).
Proof.
  induction s as [|c s IH]; intros H mt rt bf; [now rewrite app_nil_r|]. apply lacks_cons in H. destruct H as [H1 H2].
  assert (E1 : Ascii.eqb c "{" = false) by (apply Ascii.eqb_neq; intros ->; apply H1; now left).
  assert (E2 : Ascii.eqb c "]" = false) by (apply Ascii.eqb_neq; intros ->; apply H1; right; now left).
  cbn [fold_left]. unfold scan_class at 2. rewrite E1, E2.
  change (1 =? 0)%Z with false. change (1 =? 1)%Z with true. change (1 * 0 =? 1)%Z with false. change (1 * (1 - 0) * (1 - 1) =? 1)%Z with false.
  change (1 * (1 - 0) * 1 =? 1)%Z with true. cbn [andb]. rewrite IH by assumption. now rewrite <- app_assoc.
Qed.
Lemma element_lacks e : element_wf e -> lacks (txt "{]") (element_text e).
Proof.
  intros (Hn & HF & Hp & Hv & Hb & Hl & Hs). unfold element_text. fold (ixs_text (l_ix e)).
  assert (K : forall s, (forall c, In c s -> c <> "{" /\ c <> "]") -> lacks (txt "{]") s).
  { intros s H c Hc [<- |[<- |[]]]; destruct (H _ Hc); congruence. }
  rewrite !lacks_app. repeat split; try (apply K; cbn; intros c Hc; decompose [or] Hc; subst; try contradiction; split; discriminate).
  - apply ixs_lacks; [exact HF|]. intros c [<- |[<- |[]]]; repeat split; try reflexivity; discriminate.
  - apply K. intros c Hc. destruct (Hp c Hc) as [-> | ->]; split; discriminate.
  - exact Hl.
  - revert Hs. apply lacks_sub. intros c [<- |[<- |[]]]; cbn; auto.
Qed.
Lemma concat_lacks cs l : Forall (lacks cs) l -> lacks cs (concat l).
Proof. induction 1; cbn; [intros c []|]. now apply lacks_app. Qed.

Definition meta_text (n : entry) : text := txt "'" ++ join (txt ", '") (map field_text (n_fields n)).
Definition list_text (n : entry) : text := n_first n ++ concat (map element_text (n_elems n)).
Lemma class_entry n mt rt bf : entry_wf n -> exists bf',
  fold_left scan_class (entry_text n) (Build_cstate mt rt 0 0 0 bf) = Build_cstate (mt ++ [meta_text n]) (rt ++ [list_text n]) 0 0 0 bf'.
Proof.
  intros (Hn & Hf & He & Ha & Hb & H1 & Hc & Hs).
  assert (M : lacks (txt "{}") (meta_text n)).
  { unfold meta_text. apply lacks_app. split; [intros c [<- |[]] [H|[H|[]]]; discriminate H|]. apply join_lacks.
    - intros c Hc0 Hi. destruct Hc0 as [<- |[<- |[<- |[]]]]; destruct Hi as [H|[H|[]]]; discriminate H.
    - apply Forall_forall. intros y Hy. apply in_map_iff in Hy. destruct Hy as (f & <- & Hin). rewrite Forall_forall in Hf. apply (Hf f Hin). }
  assert (L : lacks (txt "{]") (list_text n)).
  { unfold list_text. apply lacks_app. split.
    - revert H1. apply lacks_sub. intros c [<- |[<- |[]]]; cbn; auto.
    - apply concat_lacks. apply Forall_forall. intros y Hy. apply in_map_iff in Hy. destruct Hy as (e & <- & Hin).
      rewrite Forall_forall in He. apply element_lacks; auto. }
  assert (E : entry_text n = txt "(" ++ n_a n ++ txt "{" ++ meta_text n ++ txt "}" ++ n_b n ++ txt "[" ++ list_text n ++ txt "]" ++ n_c n ++ txt ")" ++ n_sep n).
  { unfold entry_text, meta_text, list_text. cbn [txt list_ascii_of_string app]. now rewrite <- !app_assoc. }
  rewrite E. 
  assert (S1 : forall bf, scan_class (Build_cstate mt rt 0 0 0 bf) "(" = Build_cstate mt rt 1 0 0 bf) by reflexivity.
  assert (S2 : forall bf, scan_class (Build_cstate mt rt 1 0 0 bf) "{" = Build_cstate mt rt 1 1 0 []) by reflexivity.
  assert (S3 : forall bf, scan_class (Build_cstate mt rt 1 1 0 bf) "}" = Build_cstate (mt ++ [bf]) rt 1 0 0 bf) by reflexivity.
  assert (S4 : forall mt bf, scan_class (Build_cstate mt rt 1 0 0 bf) "[" = Build_cstate mt rt 1 0 1 []) by reflexivity.
  assert (S5 : forall mt bf, scan_class (Build_cstate mt rt 1 0 1 bf) "]" = Build_cstate mt (rt ++ [bf]) 1 0 0 bf) by reflexivity.
  assert (S6 : forall mt rt bf, scan_class (Build_cstate mt rt 1 0 0 bf) ")" = Build_cstate mt rt 0 0 0 bf) by reflexivity.
  cbn [txt list_ascii_of_string].
  rewrite !fold_left_app. cbn [fold_left]. rewrite S1, class1, S2, class_meta, S3, class1, S4, class_elem, S5, class1, S6, class0 by assumption.
  cbn [app]. eexists. reflexivity.
Qed.
Lemma class_entries l : Forall entry_wf l -> forall mt rt bf, exists bf',
  fold_left scan_class (concat (map entry_text l)) (Build_cstate mt rt 0 0 0 bf) =
  Build_cstate (mt ++ map meta_text l) (rt ++ map list_text l) 0 0 0 bf'.
Proof.
  induction 1 as [|n l Hn HF IH]; intros mt rt bf.
  - exists bf. cbn. now rewrite !app_nil_r.
  - cbn [map concat]. rewrite fold_left_app. destruct (class_entry n mt rt bf Hn) as [b ->].
    destruct (IH (mt ++ [meta_text n]) (rt ++ [list_text n]) b) as [b' E]. exists b'. rewrite E, <- !app_assoc. reflexivity.
Qed.
