(** Lemmas about the string primitives. *)
From Coq Require Import Ascii DecimalString DecimalFacts DecimalN.
From Verif Require Import Base BaseLemmas Text.
Open Scope string_scope.

Lemma split_aux_token w s : no_ws w = true ->
  split_aux (w ++ s) = let (v, r) := split_aux s in (w ++ v, r).
Proof. induction w as [|c w IH]; cbn; intros Hw.
  - now destruct (split_aux s).
  - apply andb_true_iff in Hw; destruct Hw as [Hc Hw]. rewrite IH by exact Hw.
    destruct (split_aux s) as [v r]. apply negb_true_iff in Hc. now rewrite Hc. Qed.

Lemma append_nil_r s : s ++ "" = s.
Proof. induction s; cbn; congruence. Qed.

Lemma token_no_ws w : token w = true -> no_ws w = true.
Proof. destruct w; [discriminate|auto]. Qed.

Lemma split_ws_one w : token w = true -> split_ws w = [w].
Proof. intros Hw. unfold split_ws. rewrite <- (append_nil_r w), split_aux_token by (apply token_no_ws; exact Hw).
  cbn. rewrite append_nil_r. destruct w; [discriminate|reflexivity]. Qed.

Lemma split_ws_cons w s : token w = true -> split_ws (w ++ String " "%char s) = w :: split_ws s.
Proof. intros Hw. unfold split_ws. rewrite split_aux_token by (apply token_no_ws; exact Hw).
  cbn. destruct (split_aux s) as [v r]. replace (is_ws " ") with true by reflexivity. rewrite append_nil_r. destruct w; [discriminate|reflexivity]. Qed.

Lemma split_ws_space s : split_ws (String " "%char s) = split_ws s.
Proof. unfold split_ws; cbn [split_aux]. destruct (split_aux s); reflexivity. Qed.

(** the shape produced by the writers: joined index tokens, then " v" *)
Lemma split_ws_join l v : forallb token l = true -> token v = true ->
  split_ws (join_sp l ++ String " "%char v) = (l ++ [v])%list.
Proof. intros Hl Hv. induction l as [|w l IH]; cbn [join_sp].
  - change ("" ++ String " "%char v)%string with (String " "%char v).
    rewrite split_ws_space, split_ws_one by exact Hv. reflexivity.
  - cbn in Hl. apply andb_true_iff in Hl; destruct Hl as [Hw Hl]. specialize (IH Hl).
    destruct l as [|w' l].
    + rewrite split_ws_cons by exact Hw. rewrite split_ws_one by exact Hv. reflexivity.
    + assert (Ha : forall a b c : string, ((a ++ b) ++ c = a ++ (b ++ c))%string).
      { intros a b c; induction a as [|x a IHa]; cbn; congruence. }
      rewrite Ha. cbn [append]. rewrite split_ws_cons by exact Hw.
      rewrite IH. reflexivity. Qed.

Lemma append_assoc (a b c : string) : ((a ++ b) ++ c = a ++ (b ++ c))%string.
Proof. induction a as [|x a IHa]; cbn; congruence. Qed.

Lemma split_ws_join2 l v w : forallb token l = true -> token v = true -> token w = true ->
  split_ws (join_sp l ++ String " "%char (v ++ String " "%char w)) = (l ++ [v; w])%list.
Proof. intros Hl Hv Hw. induction l as [|x l IH]; cbn [join_sp].
  - change ("" ++ ?z)%string with z. cbn [append].
    rewrite split_ws_space, split_ws_cons, split_ws_one by assumption. reflexivity.
  - cbn in Hl. apply andb_true_iff in Hl; destruct Hl as [Hx Hl]. specialize (IH Hl).
    destruct l as [|w' l].
    + rewrite split_ws_cons, split_ws_cons, split_ws_one by assumption. reflexivity.
    + rewrite append_assoc. cbn [append]. rewrite split_ws_cons by exact Hx.
      rewrite IH. reflexivity. Qed.

(** ** decimal numbers *)
Lemma to_uint_nonnil n : N.to_uint n <> Decimal.Nil.
Proof. intros He. assert (Hn := Unsigned.of_to n). rewrite He in Hn. cbn in Hn. subst n.
  vm_compute in He. discriminate. Qed.

Fixpoint digits (s : string) : bool :=
  match s with
  | EmptyString => true
  | String c s' => (Nat.leb 48 (nat_of_ascii c) && Nat.leb (nat_of_ascii c) 57) && digits s'
  end.

Lemma digits_string_of_uint d : digits (NilEmpty.string_of_uint d) = true.
Proof. induction d; cbn; auto. Qed.

Lemma digits_print n : digits (print_nat n) = true.
Proof. unfold print_nat, NilZero.string_of_uint. destruct (N.to_uint (N.of_nat n));
  [reflexivity|apply digits_string_of_uint..]. Qed.

Lemma digits_no_ws s : digits s = true -> no_ws s = true.
Proof. induction s as [|c s IH]; cbn [digits no_ws]; [reflexivity|]. rewrite !andb_true_iff, !Nat.leb_le.
  intros [[H1 H2] H3]. split; [|auto]. apply negb_true_iff. unfold is_ws.
  cbv zeta. generalize dependent (nat_of_ascii c); intros n H1 H2.
  destruct (Nat.eqb_spec n 32), (Nat.leb_spec 9 n), (Nat.leb_spec n 13), (Nat.leb_spec 28 n),
    (Nat.leb_spec n 31); try reflexivity; exfalso; lia. Qed.

Lemma print_nonempty n : print_nat n <> EmptyString.
Proof. unfold print_nat, NilZero.string_of_uint. destruct (N.to_uint (N.of_nat n)); discriminate. Qed.

Lemma token_print n : token (print_nat n) = true.
Proof. unfold token. destruct (print_nat n) eqn:E; [exfalso; apply (print_nonempty n); exact E|].
  rewrite <- E. apply digits_no_ws, digits_print. Qed.

Lemma parse_print n : parse_int (print_nat n) = Some (Z.of_nat n).
Proof. unfold parse_int, NilZero.int_of_string.
  assert (Hu := NilZero.usu (N.to_uint (N.of_nat n)) (to_uint_nonnil (N.of_nat n))). fold (print_nat n) in Hu.
  assert (Hd := digits_print n).
  destruct (print_nat n) as [|c s] eqn:E; [discriminate|].
  cbn [digits] in Hd. rewrite !andb_true_iff, !Nat.leb_le in Hd.
  destruct (Ascii.eqb_spec c "-"%char) as [->|Hc]; [exfalso; cbn in Hd; lia|].
  rewrite Hu. cbn. f_equal.
  unfold Z.of_uint. change (Pos.of_uint (N.to_uint (N.of_nat n))) with (N.of_uint (N.to_uint (N.of_nat n))).
  rewrite Unsigned.of_to. apply nat_N_Z. Qed.

(** ** splitting at single spaces *)
Lemma no_ws_space c w : no_ws (String c w) = true -> Ascii.eqb c " "%char = false /\ no_ws w = true.
Proof. cbn [no_ws]. rewrite andb_true_iff, negb_true_iff. intros [Hc Hw]. split; [|exact Hw].
  destruct (Ascii.eqb_spec c " "%char) as [->|Hn]; [discriminate|reflexivity]. Qed.

Lemma split_sp_aux_token w s : no_ws w = true ->
  split_sp_aux (w ++ s) = let (v, r) := split_sp_aux s in (w ++ v, r).
Proof. induction w as [|c w IH]; intros Hw.
  - cbn. now destruct (split_sp_aux s).
  - apply no_ws_space in Hw; destruct Hw as [Hc Hw]. cbn [append split_sp_aux]. rewrite IH by exact Hw.
    destruct (split_sp_aux s) as [v r]. now rewrite Hc. Qed.

Lemma split_sp_cons w s : no_ws w = true -> split_sp (w ++ String " "%char s) = w :: split_sp s.
Proof. intros Hw. unfold split_sp. rewrite split_sp_aux_token by exact Hw.
  cbn [split_sp_aux]. destruct (split_sp_aux s) as [v r]. cbn. now rewrite append_nil_r. Qed.

Lemma split_sp_one w : no_ws w = true -> split_sp w = [w].
Proof. intros Hw. unfold split_sp. rewrite <- (append_nil_r w), split_sp_aux_token by exact Hw.
  cbn. now rewrite append_nil_r. Qed.

Lemma split_sp_join l s : l <> [] -> forallb no_ws l = true ->
  split_sp (join_sp l ++ String " "%char s) = (l ++ split_sp s)%list.
Proof. intros Hl. induction l as [|w l IH]; [congruence|]. cbn [forallb join_sp]. intros Hf.
  apply andb_true_iff in Hf; destruct Hf as [Hw Hf].
  destruct l as [|w' l].
  - rewrite split_sp_cons by exact Hw. reflexivity.
  - rewrite append_assoc. cbn [append]. rewrite split_sp_cons by exact Hw.
    rewrite IH by (congruence || exact Hf). reflexivity. Qed.
