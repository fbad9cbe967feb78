(** Proofs about the command line configuration: the options of the four groups and of a program. *)
From Coq Require Import Ascii Permutation.
From Verif Require Import Base BaseLemmas Text TextLemmas Config ConfigSpec ConfigProofs.
Open Scope string_scope.
Open Scope list_scope.
Open Scope res_scope.

Fixpoint nodupb (l : list string) : bool :=
  match l with [] => true | x :: l' => negb (existsb (String.eqb x) l') && nodupb l' end.
Lemma nodupb_spec l : nodupb l = true -> NoDup l.
Proof.
  induction l as [|x l IH]; cbn; intros H; constructor; apply andb_prop in H as [H1 H2]; [|now apply IH].
  intros Hin. apply Bool.negb_true_iff in H1. assert (existsb (String.eqb x) l = true); [|congruence].
  apply existsb_exists. exists x. now rewrite String.eqb_refl.
Qed.
Lemma NoDup_app_intro {A} (l l' : list A) : NoDup l -> NoDup l' -> (forall x, In x l -> ~ In x l') -> NoDup (l ++ l').
Proof.
  induction l as [|a l IH]; cbn; [easy|]. intros Hl Hl' H. inversion Hl as [|? ? H1 H2]; subst. constructor.
  - intros Hin. apply in_app_or in Hin as [Hin|Hin]; [easy|]. apply (H a); auto.
  - apply IH; auto.
Qed.

Section P.
Context {F : Type} (parse_float : string -> option F) (q : Z -> positive -> F) (neglike : string -> bool).
Notation val := (pyval F).
Notation option_ := (@option_ F).
Notation dflt := (default q).
Notation cfg := (default_config q).

Definition dest (g : option string) (a : string) : string := match g with Some k => (k ++ "_" ++ a)%string | None => a end.

Lemma dget_In' {V} (d : dict string V) k v : dget d k = Some v -> In (k, v) d.
Proof. apply dget_In. Qed.

(** ** facts checked by computation on the real configuration *)
Lemma keys_eq : dkeys cfg = group_names.
Proof. reflexivity. Qed.
Definition attr_check (k a : string) : bool :=
  negb (contains "__" a) && negb (contains "__" (k ++ "_" ++ a)) &&
  match search_keys group_names (k ++ "_" ++ a) with Some k' => String.eqb k' k | None => false end.
Lemma attrs_ok : forallb (fun kc => forallb (fun xv => attr_check (fst kc) (fst xv)) (snd kc)) cfg = true.
Proof. vm_compute. reflexivity. Qed.
Lemma default_In k a v : dflt k a = Some v -> exists c, In (k, c) cfg /\ In (a, v) c.
Proof.
  unfold default, cget. destruct (dget cfg k) as [c|] eqn:E; [|easy]. intros H. exists c.
  split; now apply dget_In'.
Qed.
Lemma attr_facts k a v : dflt k a = Some v ->
  contains "__" a = false /\ contains "__" (k ++ "_" ++ a) = false /\ search_keys group_names (k ++ "_" ++ a) = Some k.
Proof.
  intros H. destruct (default_In _ _ _ H) as (c & Hc & Ha).
  pose proof attrs_ok as Hok. rewrite forallb_forall in Hok. specialize (Hok _ Hc). rewrite forallb_forall in Hok.
  specialize (Hok _ Ha). unfold attr_check in Hok. cbn [fst] in Hok.
  apply andb_prop in Hok as [Hok H3]. apply andb_prop in Hok as [H1 H2].
  apply Bool.negb_true_iff in H1, H2. repeat split; try easy.
  destruct (search_keys _ _); [|easy]. apply String.eqb_eq in H3. now subst.
Qed.

Definition groups : list option_ := flat_map (fun kc => group_options (fst kc) (snd kc)) cfg ++ [move_option].
Definition group_check (o : option_) : bool :=
  prefixb "--" (o_flag o) && negb (contains "=" (o_flag o)) && negb (contains "__" (o_dest o)) &&
  match search_keys group_names (drop 2 (o_flag o)) with Some _ => true | None => false end &&
  match search_keys group_names (o_dest o) with
  | Some k => let a := drop (1 + String.length k) (o_dest o) in
      String.eqb (o_dest o) (k ++ "_" ++ a) &&
      match dflt k a with
      | Some v => match v, o_default o with
                  | VBool b, VBool b' => Bool.eqb b b'
                  | VBool _, _ | _, VBool _ => false
                  | _, _ => true end
      | None => false end
  | None => false
  end.
Lemma groups_ok : forallb group_check groups = true.
Proof. vm_compute. reflexivity. Qed.
Lemma groups_flags : NoDup (map o_flag groups).
Proof. apply nodupb_spec. vm_compute. reflexivity. Qed.
Lemma groups_dests : NoDup (map o_dest groups).
Proof. apply nodupb_spec. vm_compute. reflexivity. Qed.
Lemma group_facts o : In o groups ->
  prefixb "--" (o_flag o) = true /\ contains "=" (o_flag o) = false /\ contains "__" (o_dest o) = false /\
  search_keys group_names (drop 2 (o_flag o)) <> None /\
  exists k a v, o_dest o = dest (Some k) a /\ search_keys group_names (o_dest o) = Some k /\ dflt k a = Some v.
Proof.
  intros Ho. pose proof groups_ok as H. rewrite forallb_forall in H. specialize (H o Ho). unfold group_check in H.
  apply andb_prop in H as [H H5]. apply andb_prop in H as [H H4]. apply andb_prop in H as [H H3]. apply andb_prop in H as [H1 H2].
  apply Bool.negb_true_iff in H2, H3. split; [easy|]. split; [easy|]. split; [easy|]. split; [now destruct (search_keys _ (drop 2 _))|].
  destruct (search_keys group_names (o_dest o)) as [k|]; [|easy].
  apply andb_prop in H5 as [H5 H6]. apply String.eqb_eq in H5. cbv zeta in H5, H6.
  exists k, (drop (1 + String.length k) (o_dest o)).
  destruct (dflt k _) as [v|]; [|easy]. exists v. now split.
Qed.

Lemma In_group k a v o : dflt k a = Some v -> attr_option k a v = Some o -> In o groups.
Proof.
  intros H Ho. destruct (default_In _ _ _ H) as (c & Hc & Ha). destruct (attr_facts _ _ _ H) as (H1 & _ & _).
  apply in_or_app. left. apply in_flat_map. exists (k, c). split; [easy|]. unfold group_options. cbn [fst snd].
  apply in_flat_map. exists (a, v). split.
  - apply filter_In. split; [easy|]. cbn. now rewrite H1.
  - cbn [fst snd]. rewrite Ho. now left.
Qed.
Lemma move_In : In move_option groups.
Proof. apply in_or_app; right. now left. Qed.

(** ** with the program's own options *)
Variable extra : list (mainopt F).
Hypothesis Hex : extra_ok q extra.
Notation prog := (program q extra).
Notation mean := (meaning parse_float q extra).

Lemma main_eq : main_options q = map option_of (main_table q).
Proof. reflexivity. Qed.
Definition ps : list option_ := map option_of (main_table q) ++ groups ++ map option_of extra.

Definition main_check (m : mainopt F) : bool :=
  negb (contains "=" (m_name m)) && negb (contains "__" (m_name m)) && match search_keys group_names (m_name m) with None => true | Some _ => false end.
Lemma table_ok : forallb main_check (main_table q) = true.
Proof. vm_compute. reflexivity. Qed.
Lemma main_facts m : In m prog ->
  contains "=" (m_name m) = false /\ contains "__" (m_name m) = false /\ search_keys group_names (m_name m) = None.
Proof.
  intros Hm. apply in_app_or in Hm as [Hm|Hm].
  - pose proof table_ok as H. rewrite forallb_forall in H. specialize (H m Hm). unfold main_check in H.
    apply andb_prop in H as [H H3]. apply andb_prop in H as [H1 H2]. apply Bool.negb_true_iff in H1, H2.
    repeat split; try easy. now destruct (search_keys _ _).
  - destruct Hex as [_ H]. destruct (H m Hm) as (H1 & H2 & H3). repeat split; try easy.
    unfold search_keys. destruct (find _ _) eqn:E; [|easy]. apply find_some in E as [E1 E2]. rewrite (H1 _ E1) in E2. easy.
Qed.
Lemma In_ps o : In o ps <-> In o groups \/ exists m, In m prog /\ o = option_of m.
Proof.
  unfold ps, program. rewrite !in_app_iff, !in_map_iff. split.
  - intros [(m & <- & H)|[H|(m & <- & H)]]; [right|now left|right]; exists m; rewrite in_app_iff; auto.
  - intros [H|(m & H & ->)]; [auto|]. apply in_app_or in H as [H|H]; [left|right; right]; eauto.
Qed.
Lemma contains_dashes n : contains "=" ("--" ++ n) = contains "=" n.
Proof. reflexivity. Qed.
Lemma ps_pre o : In o ps -> prefixb "--" (o_flag o) = true /\ contains "=" (o_flag o) = false.
Proof.
  intros H. apply In_ps in H as [H|(m & H & ->)].
  - now destruct (group_facts o H) as (? & ? & _).
  - destruct (main_facts m H) as (H1 & _ & _). split; [apply prefixb_append|]. exact H1.
Qed.
Lemma ps_dest_ok o : In o ps -> contains "__" (o_dest o) = false.
Proof.
  intros H. apply In_ps in H as [H|(m & H & ->)].
  - now destruct (group_facts o H) as (_ & _ & ? & _).
  - now destruct (main_facts m H) as (_ & H1 & _).
Qed.
(** order does not matter for distinctness *)
Lemma prog_perm {B} (f : option_ -> B) : NoDup (map f groups) -> NoDup (map f (map option_of prog)) ->
  (forall o m, In o groups -> In m prog -> f o <> f (option_of m)) -> NoDup (map f ps).
Proof.
  intros Hg Hp Hd. apply (Permutation_NoDup (l := map f (groups ++ map option_of prog))).
  - apply Permutation_map. unfold ps, program. rewrite map_app. apply Permutation_app_swap_app.
  - rewrite map_app. apply NoDup_app_intro; [easy|easy|]. intros x Hx Hy. apply in_map_iff in Hx as (o & <- & Ho).
    apply in_map_iff in Hy as (o' & E & Ho'). apply in_map_iff in Ho' as (m & <- & Hm). now apply (Hd o m).
Qed.
Lemma drop2 n : drop 2 ("--" ++ n) = n.
Proof. now destruct n. Qed.
Lemma ps_flags : NoDup (map o_flag ps).
Proof.
  apply prog_perm.
  - apply groups_flags.
  - rewrite map_map. change (NoDup (map (fun m => append "--" (m_name m)) prog)). rewrite <- (map_map m_name (append "--")). destruct Hex as [H _].
    apply NoDup_map_inj; [|exact H]. intros x y _ _. apply append_inj.
  - intros o m Ho Hm E. destruct (group_facts o Ho) as (_ & _ & _ & H & _). destruct (main_facts m Hm) as (_ & _ & H').
    apply H. rewrite E. unfold option_of. cbn [o_flag]. now rewrite drop2.
Qed.
Lemma ps_dests : NoDup (map o_dest ps).
Proof.
  apply prog_perm.
  - apply groups_dests.
  - rewrite map_map. destruct Hex as [H _]. exact H.
  - intros o m Ho Hm E. destruct (group_facts o Ho) as (_ & _ & _ & _ & k & a & v & _ & H & _). destruct (main_facts m Hm) as (_ & _ & H').
    rewrite E in H. change (search_keys group_names (m_name m) = Some k) in H. congruence.
Qed.
Lemma parser_ok : (ps0 <- get_args_parser q cfg ;; add_arguments (map option_of extra) ps0) = Ok ps.
Proof.
  pose proof ps_flags as H. unfold ps in *. rewrite app_assoc, map_app in H.
  unfold get_args_parser. rewrite main_eq.
  replace (map option_of (main_table q) ++ flat_map (fun kc => group_options (fst kc) (snd kc)) cfg ++ [move_option])
    with (map option_of (main_table q) ++ groups) by (unfold groups; now rewrite app_assoc).
  rewrite add_arguments_ok.
  - cbn [bind app]. rewrite add_arguments_ok; [now rewrite app_assoc|]. now rewrite map_app.
  - cbn [app]. rewrite <- (firstn_all (map o_flag (map option_of (main_table q) ++ groups))).
    clear -H. set (l := map o_flag (map option_of (main_table q) ++ groups)) in *. rewrite firstn_all.
    revert H. generalize (map o_flag (map option_of extra)). induction l as [|x l IH]; intros r H; [constructor|].
    cbn in H. inversion H as [|? ? H1 H2]; subst. constructor; [|now apply (IH r)]. intros Hx. apply H1, in_or_app; now left.
Qed.

(** ** uses *)
Definition known (g : option string) (a : string) : Prop :=
  match g with Some k => dflt k a <> None | None => the_main q extra a <> None end.
Lemma the_main_Some n m : the_main q extra n = Some m -> In m prog /\ m_name m = n.
Proof. unfold the_main. intros H. apply find_some in H as [H1 H2]. now apply String.eqb_eq in H2. Qed.
Lemma meaning_known u g a v : mean u = Some (g, a, v) -> known g a.
Proof.
  destruct u as [k b|k b s e|[[s e]|]|n|n s e]; cbn [meaning].
  - destruct (eqb _ move_key); [easy|]. destruct (dflt k b) as [[| | | | | |]|] eqn:E; try easy. intros H; injection H as <- <- <-.
    unfold known; now rewrite E.
  - destruct (dflt k b) as [[| | | | | |]|] eqn:E; try easy; destruct (denotes _ _ _); try easy; intros H; injection H as <- <- <-; unfold known; now rewrite E.
  - intros H; injection H as <- <- <-. now cbv.
  - intros H; injection H as <- <- <-. now cbv.
  - destruct (the_main q extra n) as [m|] eqn:E; [|easy]. destruct (m_type m); [easy|]. intros H; injection H as <- <- <-. unfold known; now rewrite E.
  - destruct (the_main q extra n) as [m|] eqn:E; [|easy]. destruct (m_type m); [|easy]. destruct (denotes _ _ _); [|easy].
    intros H; injection H as <- <- <-. unfold known; now rewrite E.
Qed.
Lemma dest_inj g a g' a' : known g a -> known g' a' -> dest g a = dest g' a' -> g = g' /\ a = a'.
Proof.
  assert (Hk : forall k a, known (Some k) a -> search_keys group_names (dest (Some k) a) = Some k).
  { intros k b Hk. unfold known in Hk. destruct (dflt k b) eqn:E; [|easy]. now destruct (attr_facts _ _ _ E) as (_ & _ & ?). }
  assert (Hm : forall n, known None n -> search_keys group_names n = None).
  { intros n Hm. unfold known in Hm. destruct (the_main q extra n) as [m|] eqn:E; [|easy]. destruct (the_main_Some _ _ E) as [H <-]. now destruct (main_facts m H) as (_ & _ & ?). }
  intros H H' E. destruct g as [k|], g' as [k'|].
  - assert (k = k') as <-. { apply Hk in H, H'. congruence. }
    split; [easy|]. cbn in E. apply append_inj in E. now injection E.
  - apply Hk in H. apply Hm in H'. cbn [dest] in E, H. congruence.
  - apply Hk in H'. apply Hm in H. cbn [dest] in E, H'. congruence.
  - now cbn in E.
Qed.
Lemma move_ne k a : eqb (k, a) move_key = false -> eqb (k ++ "_" ++ a)%string "CTMARGS_fwd_checkpoint_move" = true -> dflt k a = None.
Proof.
  intros H E. apply (@eqb_true string) in E. destruct (dflt k a) eqn:Ed; [|easy]. exfalso.
  assert (known (Some k) a) by (unfold known; now rewrite Ed).
  destruct (dest_inj (Some k) a (Some "CTMARGS") "fwd_checkpoint_move"); [easy|now cbv|exact E|].
  injection H1 as ->. subst a. now cbv in H.
Qed.

Lemma use_sets u g a v : valid parse_float q neglike extra u -> mean u = Some (g, a, v) ->
  sets parse_float neglike ps (tokens q u) (dest g a) v /\ exists t r, tokens q u = t :: r /\ starts ps t.
Proof.
  intros [_ Ht] Hm. pose proof ps_flags as Hf. pose proof ps_pre as Hp.
  assert (Hst : forall o s e, In o ps -> exists t r, with_text (o_flag o) s e = t :: r /\ starts ps t).
  { intros o s [|] Ho; unfold with_text; [exists (o_flag o ++ "=" ++ s)%string, []|exists (o_flag o), [s]]; (split; [easy|]); exists o; (split; [easy|]); [right; now exists s|now left]. }
  destruct u as [k b|k b s e|[[s e]|]|n|n s e]; cbn [meaning tokens] in *.
  - destruct (eqb (k, b) move_key) eqn:Ek; [easy|].
    destruct (dflt k b) as [[|c| | | | |]|] eqn:E; try easy. injection Hm as <- <- <-.
    assert (Hne : eqb (k ++ "_" ++ b)%string "CTMARGS_fwd_checkpoint_move" = false).
    { destruct (eqb (k ++ "_" ++ b)%string _) eqn:E'; [|easy]. rewrite (move_ne _ _ Ek E') in E. easy. }
    set (o := if c then {| o_flag := ("--" ++ k ++ "_no_" ++ b)%string; o_dest := (k ++ "_" ++ b)%string; o_act := StoreFalse; o_default := VBool true |}
              else {| o_flag := ("--" ++ k ++ "_" ++ b)%string; o_dest := (k ++ "_" ++ b)%string; o_act := StoreTrue; o_default := VBool false |} : option_).
    assert (Ho : In o ps).
    { apply In_ps. left. apply (In_group k b (VBool c)); [easy|]. unfold attr_option. rewrite Hne. now destruct c. }
    destruct c; (split; [|exists (o_flag o), []; split; [easy|exists o; split; [easy|now left]]]).
    + now apply (sets_unswitch parse_float neglike ps Hf o).
    + now apply (sets_switch parse_float neglike ps Hf o).
  - assert (Hx : exists d t, dflt k b = Some d /\ t = type_of d /\ (forall c, d <> VBool c) /\ denotes parse_float t s = Some v /\ g = Some k /\ a = b).
    { destruct (dflt k b) as [[| |z|x|x|x|l]|]; try easy.
      - exists (VInt z), TyInt. destruct (denotes _ _ _); [|easy]. injection Hm as <- <- <-. easy.
      - exists (VFloat x), TyFloat. destruct (denotes _ _ _); [|easy]. injection Hm as <- <- <-. easy.
      - exists (VStr x), TyStr. destruct (denotes _ _ _); [|easy]. injection Hm as <- <- <-. easy.
      - exists (VList l), TyList. destruct (denotes _ _ _); [|easy]. injection Hm as <- <- <-. easy. }
    destruct Hx as (d & t & E & -> & Hb & Hd & -> & ->).
    set (o := {| o_flag := ("--" ++ k ++ "_" ++ b)%string; o_dest := (k ++ "_" ++ b)%string; o_act := Store (type_of d); o_default := d |} : option_).
    assert (Ho : In o ps).
    { apply In_ps. left. apply (In_group k b d); [easy|]. unfold attr_option.
      destruct (eqb (k ++ "_" ++ b)%string _) eqn:E'.
      - exfalso. apply (@eqb_true string) in E'.
        destruct (dest_inj (Some k) b (Some "CTMARGS") "fwd_checkpoint_move"); [unfold known; now rewrite E|now cbv|exact E'|].
        injection H as ->. subst b. cbv in E. injection E as <-. now apply (Hb false).
      - destruct d as [|c| | | | |]; try easy. }
    split; [|now apply (Hst o)].
    apply (sets_value parse_float neglike ps Hf Hp o (type_of d) s v e); try easy. intros ->. exact Ht.
  - injection Hm as <- <- <-. assert (Ho : In move_option ps) by (apply In_ps; left; apply move_In).
    split; [|now apply (Hst move_option)].
    replace (if (lower s =? "true")%string then _ else _) with (@true_or_string F (Some s)).
    + apply (sets_move parse_float neglike ps Hf Hp move_option s e); try easy. intros ->. exact Ht.
    + unfold true_or_string, eqb. destruct (eq_dec (lower s) "true") as [->|H1]; [easy|].
      apply String.eqb_neq in H1 as ->. destruct (eq_dec (lower s) "false") as [->|H2]; [easy|]. apply String.eqb_neq in H2 as ->. easy.
  - injection Hm as <- <- <-. assert (Ho : In move_option ps) by (apply In_ps; left; apply move_In).
    split; [now apply (sets_move_none parse_float neglike ps Hf move_option)|].
    exists (o_flag (@move_option F)), []. split; [easy|]. exists move_option. auto.
  - destruct (the_main q extra n) as [m|] eqn:E; [|easy]. destruct (m_type m) eqn:Et; [easy|]. injection Hm as <- <- <-.
    destruct (the_main_Some _ _ E) as [Hin <-].
    assert (Ho : In (option_of m) ps) by (apply In_ps; right; now exists m).
    split; [|exists (o_flag (option_of m)), []; split; [easy|exists (option_of m); auto]].
    apply (sets_switch parse_float neglike ps Hf (option_of m)); [easy|]. cbn. now rewrite Et.
  - destruct (the_main q extra n) as [m|] eqn:E; [|easy]. destruct (m_type m) as [t|] eqn:Et; [|easy].
    destruct (denotes _ _ _) eqn:Ed; [|easy]. injection Hm as <- <- <-.
    destruct (the_main_Some _ _ E) as [Hin <-].
    assert (Ho : In (option_of m) ps) by (apply In_ps; right; now exists m).
    split; [|now apply (Hst (option_of m))].
    apply (sets_value parse_float neglike ps Hf Hp (option_of m) t s p e); try easy; [cbn; now rewrite Et|]. intros ->. exact Ht.
Qed.

Definition upd (ns : dict string val) (u : use) : dict string val :=
  match mean u with Some (g, a, v) => dset ns (dest g a) v | None => ns end.
Lemma loop_uses us rest ns fuel : Forall (valid parse_float q neglike extra) us -> okrest neglike ps rest ->
  (length (flat_map (tokens q) us ++ rest) <= fuel)%nat ->
  exists fuel', (length rest <= fuel')%nat /\
    parse_loop parse_float neglike fuel ps (flat_map (tokens q) us ++ rest) ns = parse_loop parse_float neglike fuel' ps rest (fold_left upd us ns).
Proof.
  intros Hv Hr. revert ns fuel. induction Hv as [|u us Hu Hv IH]; intros ns fuel Hf; [now exists fuel|].
  cbn [flat_map] in *. rewrite <- app_assoc in *.
  destruct (mean u) as [[[g a] v]|] eqn:Em; [|now destruct Hu].
  destruct (use_sets u g a v Hu Em) as [Hs _].
  destruct (Hs (flat_map (tokens q) us ++ rest) ns fuel) as (fuel1 & Hf1 & E).
  - destruct Hv as [|u' us' Hu' Hv']; [exact Hr|]. right. cbn [flat_map].
    destruct (mean u') as [[[g' a'] v']|] eqn:Em'; [|now destruct Hu'].
    destruct (use_sets u' g' a' v' Hu' Em') as [_ (t & r & -> & Hst)]. cbn [app].
    eexists _, _. split; [reflexivity|]. apply starts_not_arg; [apply ps_flags|apply ps_pre|easy].
  - exact Hf.
  - rewrite E. destruct (IH (dset ns (dest g a) v) fuel1 Hf1) as (fuel2 & Hf2 & E2). exists fuel2. split; [easy|].
    rewrite E2. cbn [fold_left]. unfold upd at 3. now rewrite Em.
Qed.
Lemma parse_uses us : Forall (valid parse_float q neglike extra) us ->
  parse_args parse_float neglike ps (flat_map (tokens q) us) = Ok (fold_left upd us (defaults ps)).
Proof.
  intros Hv. unfold parse_args. destruct (loop_uses us [] (defaults ps) (length (flat_map (tokens q) us)) Hv) as (f & _ & E).
  - now left.
  - now rewrite app_nil_r.
  - rewrite app_nil_r in E. rewrite E. now destruct f.
Qed.

(** ** the namespace *)
Lemma upd_get us ns g a d : known g a -> dget ns (dest g a) = d -> dget (fold_left upd us ns) (dest g a) = last_value parse_float q extra g a d us.
Proof.
  intros Hk. unfold last_value. revert ns d. induction us as [|u us IH]; intros ns d Hd; [easy|]. cbn [fold_left]. apply IH.
  unfold upd. destruct (mean u) as [[[g' a'] v]|] eqn:E; [|easy]. pose proof (meaning_known _ _ _ _ E) as Hk'.
  unfold eqb. destruct (eq_dec (g', a') (g, a)) as [H|H].
  - injection H as -> ->. now rewrite dget_dset_same.
  - rewrite dget_dset_other; [easy|]. intros H'. destruct (dest_inj g a g' a'); [easy|easy|easy|congruence].
Qed.
Lemma ps_known o : In o ps -> exists g a, known g a /\ o_dest o = dest g a.
Proof.
  intros H. apply In_ps in H as [H|(m & H & ->)].
  - destruct (group_facts o H) as (_ & _ & _ & _ & k & a & v & E & _ & Hd). exists (Some k), a. split; [unfold known; now rewrite Hd|easy].
  - exists None, (m_name m). split; [|easy]. unfold known, the_main. intros Hn.
    apply (find_none _ _ Hn) in H. rewrite String.eqb_refl in H. easy.
Qed.
Lemma known_ps g a : known g a -> exists o, In o ps /\ o_dest o = dest g a /\
  Some (o_default o) = match g with Some k => dflt k a | None => option_map m_default (the_main q extra a) end.
Proof.
  destruct g as [k|]; unfold known.
  - destruct (dflt k a) as [v|] eqn:E; [|easy]. intros _.
    destruct (eqb (k, a) move_key) eqn:Ek.
    + apply (@eqb_true (string * string)) in Ek. injection Ek as -> ->.
      exists move_option. split; [apply In_ps; left; apply move_In|]. split; [easy|]. rewrite <- E. reflexivity.
    + assert (Hne : eqb (k ++ "_" ++ a)%string "CTMARGS_fwd_checkpoint_move" = false).
      { destruct (eqb (k ++ "_" ++ a)%string _) eqn:E'; [|easy]. rewrite (move_ne _ _ Ek E') in E. easy. }
      assert (Hs : exists o, attr_option k a v = Some o /\ o_dest o = dest (Some k) a /\ o_default o = v).
      { unfold attr_option. rewrite Hne. destruct v as [|[]| | | | |]; eexists; (split; [reflexivity|easy]). }
      destruct Hs as (o & H1 & H2 & H3). exists o. split; [apply In_ps; left; now apply (In_group k a v)|]. split; [easy|]. now rewrite H3.
  - destruct (the_main q extra a) as [m|] eqn:E; [|easy]. intros _. destruct (the_main_Some _ _ E) as [H <-].
    exists (option_of m). split; [apply In_ps; right; now exists m|]. easy.
Qed.
Lemma ns_keys us : dkeys (fold_left upd us (defaults ps)) = map o_dest ps.
Proof.
  rewrite defaults_spec by apply ps_dests.
  assert (H : dkeys (map (fun o : option_ => (o_dest o, o_default o)) ps) = map o_dest ps).
  { unfold dkeys. now rewrite map_map. }
  revert H. generalize (map (fun o : option_ => (o_dest o, o_default o)) ps) as ns. induction us as [|u us IH]; intros ns H; [easy|].
  cbn [fold_left]. apply IH. unfold upd. destruct (mean u) as [[[g a] v]|] eqn:E; [|easy].
  rewrite dkeys_dset_old; [easy|]. rewrite H. destruct (known_ps g a (meaning_known _ _ _ _ E)) as (o & Ho & <- & _). now apply in_map.
Qed.
Lemma ns_get us g a : known g a -> dget (fold_left upd us (defaults ps)) (dest g a) =
  last_value parse_float q extra g a (match g with Some k => dflt k a | None => option_map m_default (the_main q extra a) end) us.
Proof.
  intros Hk. apply upd_get; [easy|]. destruct (known_ps g a Hk) as (o & Ho & <- & <-).
  rewrite defaults_spec by apply ps_dests. apply In_dget.
  - unfold dkeys. rewrite map_map. exact ps_dests.
  - now apply (in_map (fun o => (o_dest o, o_default o))).
Qed.
End P.
