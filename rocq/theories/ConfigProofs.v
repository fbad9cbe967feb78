(** Proofs about the command line configuration. *)
From Coq Require Import Ascii.
From Verif Require Import Base BaseLemmas Text TextLemmas Config ConfigSpec.
Open Scope string_scope.
Open Scope list_scope.
Open Scope res_scope.

(** ** strings *)
Lemma append_inj p a b : (p ++ a = p ++ b)%string -> a = b.
Proof. induction p as [|c p IH]; cbn; [easy|intros H; injection H; auto]. Qed.
Lemma drop_append p c a : drop (1 + String.length p) (p ++ String c a) = a.
Proof. induction p as [|d p IH]; cbn in *; [now destruct a|exact IH]. Qed.
Lemma prefixb_append p s : prefixb p (p ++ s) = true.
Proof. induction p as [|c p IH]; cbn; [easy|now rewrite Ascii.eqb_refl]. Qed.
Lemma prefixb_app_l p s t : prefixb p s = true -> prefixb p (s ++ t) = true.
Proof.
  revert s; induction p as [|c p IH]; intros [|d s]; cbn; try easy.
  intros H. apply andb_prop in H as [H1 H2]. now rewrite H1, (IH s).
Qed.
Lemma split_eq_spec f s : contains "=" f = false -> split_eq (f ++ String "=" s) = Some (f, s).
Proof.
  induction f as [|c f IH]; [easy|]. cbn [contains]. intros H. apply Bool.orb_false_iff in H as [H1 H2].
  cbn [append split_eq]. cbn [prefixb] in H1. rewrite Bool.andb_true_r in H1.
  rewrite (Ascii.eqb_sym c "="), H1, (IH H2). easy.
Qed.
Lemma split_eq_Some s f a : split_eq s = Some (f, a) -> s = (f ++ String "=" a)%string.
Proof.
  revert f; induction s as [|c s IH]; intros f; cbn; [easy|].
  destruct (Ascii.eqb_spec c "=").
  - intros H; injection H as <- <-. now subst.
  - destruct (split_eq s) as [[a' b']|]; [|easy]. intros H; injection H as <- <-. cbn. now rewrite (IH a').
Qed.
Lemma contains_app_r f t : contains "=" (f ++ String "=" t) = true.
Proof. induction f as [|c f IH]; [easy|]. cbn [append contains]. now rewrite IH, Bool.orb_true_r. Qed.
Lemma chars_letters s : chars s = map LChar (letters s).
Proof. induction s; cbn; congruence. Qed.

(** ** association lists *)
Section Fold.
Context {V : Type} (g : string -> option string).
Let step (c : dict string V) (xv : string * V) := match g (fst xv) with Some a => dset c a (snd xv) | None => c end.
Lemma fold_none ns c a : (forall x, In x (map fst ns) -> g x <> Some a) -> dget (fold_left step ns c) a = dget c a.
Proof.
  revert c; induction ns as [|[x v] ns IH]; intros c H; [easy|]. cbn [fold_left]. rewrite IH.
  - unfold step; cbn. destruct (g x) as [b|] eqn:E; [|easy].
    rewrite dget_dset_other; [easy|]. intros ->. apply (H x); [now left|easy].
  - intros y Hy. apply H. now right.
Qed.
Lemma fold_some ns c a x v : NoDup (map fst ns) -> In (x, v) ns -> g x = Some a ->
  (forall y, In y (map fst ns) -> g y = Some a -> y = x) ->
  dget (fold_left step ns c) a = Some v.
Proof.
  revert c; induction ns as [|[y w] ns IH]; intros c Hn Hin Hg Hu; [easy|]. cbn [map fst] in Hn. inversion Hn as [|? ? Hy Hn']; subst.
  cbn [fold_left]. destruct Hin as [E|Hin].
  - injection E as -> ->. rewrite fold_none.
    + unfold step; cbn. now rewrite Hg, dget_dset_same.
    + intros z Hz Ez. assert (z = x) by (apply Hu; [now right|easy]). now subst.
  - apply IH; try easy. intros z Hz. apply Hu. now right.
Qed.
End Fold.

(** ** the option table *)
Section P.
Context {F : Type} (parse_float : string -> option F) (q : Z -> positive -> F) (neglike : string -> bool).
Notation val := (pyval F).
Notation option_ := (@option_ F).

Lemma find_option_In (ps : list option_) o : NoDup (map o_flag ps) -> In o ps -> find_option ps (o_flag o) = Some o.
Proof.
  induction ps as [|p ps IH]; [easy|]. cbn. intros Hn [->|Hin].
  - now destruct (eq_dec (o_flag o) (o_flag o)).
  - inversion Hn as [|? ? H1 H2]; subst. destruct (eq_dec (o_flag p) (o_flag o)) as [E|].
    + exfalso. apply H1. rewrite E. now apply in_map.
    + now apply IH.
Qed.
Lemma find_option_Some (ps : list option_) f o : find_option ps f = Some o -> In o ps /\ o_flag o = f.
Proof.
  induction ps as [|p ps IH]; [easy|]. cbn. destruct (eq_dec (o_flag p) f).
  - intros H; injection H as <-. auto.
  - intros H. destruct (IH H). auto.
Qed.

Lemma add_arguments_ok (os ps : list option_) : NoDup (map o_flag (ps ++ os)) -> add_arguments os ps = Ok (ps ++ os).
Proof.
  unfold add_arguments. revert ps; induction os as [|o os IH]; intros ps Hn; cbn; [now rewrite app_nil_r|].
  unfold add_argument at 1. destruct (existsb _ ps) eqn:E.
  - apply existsb_exists in E as (p & Hp & E). apply (@eqb_true string) in E.
    rewrite map_app in Hn. cbn in Hn. apply NoDup_remove_2 in Hn. exfalso. apply Hn.
    apply in_or_app; left. rewrite <- E. now apply in_map.
  - cbn. rewrite IH; rewrite <- app_assoc; easy.
Qed.

Lemma defaults_fold (ps : list option_) ns : NoDup (map o_dest ps) -> (forall o, In o ps -> ~ In (o_dest o) (dkeys ns)) ->
  fold_left (fun ns o => if dmem ns (o_dest o) then ns else dset ns (o_dest o) (o_default o)) ps ns = ns ++ map (fun o => (o_dest o, o_default o)) ps.
Proof.
  revert ns; induction ps as [|p ps IH]; intros ns Hn Hd; cbn; [now rewrite app_nil_r|].
  cbn in Hn. inversion Hn as [|? ? H1 H2]; subst.
  assert (Hp : dget ns (o_dest p) = None) by (apply dget_None, Hd; now left).
  unfold dmem. rewrite Hp. rewrite dset_new by easy. rewrite IH.
  - now rewrite <- app_assoc.
  - easy.
  - intros o Ho. unfold dkeys. rewrite map_app. intros Hin. apply in_app_or in Hin as [Hin|[E|[]]].
    + revert Hin. apply Hd. now right.
    + cbn in E. apply H1. rewrite E. now apply in_map.
Qed.
Lemma defaults_spec (ps : list option_) : NoDup (map o_dest ps) -> defaults ps = map (fun o => (o_dest o, o_default o)) ps.
Proof. intros H. unfold defaults. rewrite defaults_fold; easy. Qed.

Lemma convert_denotes t s : convert parse_float t s = denotes parse_float t s.
Proof. destruct t; cbn; try reflexivity. now rewrite chars_letters. Qed.

Section Ps.
Variable ps : list option_.
Hypothesis Hnd : NoDup (map o_flag ps).
Hypothesis Hpre : forall o, In o ps -> prefixb "--" (o_flag o) = true /\ contains "=" (o_flag o) = false.

Lemma not_option_short s : prefixb "--" s = false -> find_option ps s = None.
Proof.
  intros H. destruct (find_option ps s) as [o|] eqn:E; [|easy].
  apply find_option_Some in E as [Hin <-]. destruct (Hpre o Hin). congruence.
Qed.
Lemma argument_is_arg s : argument neglike s = true -> is_arg neglike ps s = true.
Proof.
  unfold argument, is_arg. destruct (prefixb "-" s) eqn:E; cbn [negb orb]; [|easy].
  intros H. apply andb_prop in H as [H1 H2]. apply Bool.negb_true_iff in H2.
  rewrite (not_option_short s H2). destruct (eqb s "-"); [easy|].
  destruct (split_eq s) as [[f a]|] eqn:Es; [|now rewrite H1].
  rewrite (not_option_short f), H1; [easy|].
  destruct (prefixb "--" f) eqn:Ef; [|easy].
  apply split_eq_Some in Es. rewrite Es, prefixb_app_l in H2; easy.
Qed.
Lemma find_flag_eq o s : In o ps -> find_option ps (o_flag o ++ String "=" s) = None.
Proof.
  intros Ho. destruct (find_option ps _) as [p|] eqn:E; [|easy].
  apply find_option_Some in E as [Hp E]. destruct (Hpre p Hp) as [_ H]. rewrite E, contains_app_r in H. easy.
Qed.
Lemma prefix1 s : prefixb "--" s = true -> prefixb "-" s = true.
Proof. destruct s as [|c s]; [easy|]. cbn [prefixb]. intros H. apply andb_prop in H as [-> _]. reflexivity. Qed.

(** a token that starts a use *)
Definition starts (t : string) := exists o, In o ps /\ (t = o_flag o \/ exists s, t = (o_flag o ++ String "=" s)%string).
Lemma starts_not_arg t : starts t -> is_arg neglike ps t = false.
Proof.
  intros (o & Ho & H). destruct (Hpre o Ho) as [H1 H2]. unfold is_arg.
  destruct H as [->|[s ->]].
  - rewrite (prefix1 _ H1), (find_option_In ps o Hnd Ho). easy.
  - rewrite (prefix1 _ (prefixb_app_l _ _ _ H1)), (find_flag_eq o s Ho). cbn [negb].
    destruct (eqb _ "-") eqn:E.
    + apply (@eqb_true string) in E. destruct (o_flag o) as [|c [|d x]]; cbn in H1, E; try easy.
    + rewrite (split_eq_spec _ _ H2), (find_option_In ps o Hnd Ho). easy.
Qed.

Definition okrest (rest : list string) := rest = [] \/ exists t r, rest = t :: r /\ is_arg neglike ps t = false.

Notation loop := (parse_loop parse_float neglike).
Lemma loop_flag o rest ns fuel : In o ps ->
  loop (S fuel) ps (o_flag o :: rest) ns =
  (' (ns', rest') <- take_option parse_float neglike ps o None rest ns ;; loop fuel ps rest' ns').
Proof. intros Ho. cbn [parse_loop]. now rewrite (find_option_In ps o Hnd Ho). Qed.
Lemma loop_eq o s rest ns fuel : In o ps ->
  loop (S fuel) ps ((o_flag o ++ "=" ++ s)%string :: rest) ns =
  (' (ns', rest') <- take_option parse_float neglike ps o (Some s) rest ns ;; loop fuel ps rest' ns').
Proof.
  intros Ho. cbn [parse_loop]. cbn [append]. rewrite (find_flag_eq o s Ho).
  destruct (Hpre o Ho) as [_ H2]. now rewrite (split_eq_spec _ _ H2), (find_option_In ps o Hnd Ho).
Qed.

(** reading the tokens [ts] sets [d] to [v] *)
Definition sets (ts : list string) (d : string) (v : val) : Prop :=
  forall rest ns fuel, okrest rest -> (length (ts ++ rest) <= fuel)%nat ->
  exists fuel', (length rest <= fuel')%nat /\ loop fuel ps (ts ++ rest) ns = loop fuel' ps rest (dset ns d v).

Lemma sets_switch o : In o ps -> o_act o = StoreTrue -> sets [o_flag o] (o_dest o) (VBool true).
Proof.
  intros Ho Ha rest ns [|fuel] _ Hf; [cbn in Hf; lia|]. exists fuel. cbn in Hf. split; [lia|].
  cbn [app]. rewrite (loop_flag o) by easy. unfold take_option. now rewrite Ha.
Qed.
Lemma sets_unswitch o : In o ps -> o_act o = StoreFalse -> sets [o_flag o] (o_dest o) (VBool false).
Proof.
  intros Ho Ha rest ns [|fuel] _ Hf; [cbn in Hf; lia|]. exists fuel. cbn in Hf. split; [lia|].
  cbn [app]. rewrite (loop_flag o) by easy. unfold take_option. now rewrite Ha.
Qed.
Lemma sets_value o t s v (e : bool) : In o ps -> o_act o = Store t -> denotes parse_float t s = Some v ->
  (e = false -> argument neglike s = true) -> sets (with_text (o_flag o) s e) (o_dest o) v.
Proof.
  intros Ho Ha Hd He rest ns fuel _ Hf. unfold with_text in *. destruct e; cbn [app] in *.
  - destruct fuel as [|fuel]; [cbn in Hf; lia|]. exists fuel. cbn [length] in Hf. split; [lia|].
    rewrite (loop_eq o) by easy. unfold take_option. now rewrite Ha, convert_denotes, Hd.
  - destruct fuel as [|fuel]; [cbn in Hf; lia|]. exists fuel. cbn [length] in Hf. split; [lia|].
    rewrite (loop_flag o) by easy. unfold take_option. now rewrite Ha, (argument_is_arg s), convert_denotes, Hd by auto.
Qed.
Lemma sets_move_none o : In o ps -> o_act o = TrueOrString -> sets [o_flag o] (o_dest o) (VBool true).
Proof.
  intros Ho Ha rest ns [|fuel] Hr Hf; [cbn in Hf; lia|]. exists fuel. cbn [app length] in Hf. split; [lia|].
  cbn [app]. rewrite (loop_flag o) by easy. unfold take_option. rewrite Ha.
  destruct Hr as [->|(t & r & -> & Ht)]; [easy|]. now rewrite Ht.
Qed.
Lemma sets_move o s (e : bool) : In o ps -> o_act o = TrueOrString ->
  (e = false -> argument neglike s = true) -> sets (with_text (o_flag o) s e) (o_dest o) (true_or_string (Some s)).
Proof.
  intros Ho Ha He rest ns fuel _ Hf. unfold with_text in *. destruct e; cbn [app] in *.
  - destruct fuel as [|fuel]; [cbn in Hf; lia|]. exists fuel. cbn [length] in Hf. split; [lia|].
    rewrite (loop_eq o) by easy. unfold take_option. now rewrite Ha.
  - destruct fuel as [|fuel]; [cbn in Hf; lia|]. exists fuel. cbn [length] in Hf. split; [lia|].
    rewrite (loop_flag o) by easy. unfold take_option. now rewrite Ha, (argument_is_arg s) by auto.
Qed.
End Ps.
End P.
