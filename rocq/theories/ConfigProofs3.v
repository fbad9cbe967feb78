(** Proofs about the command line configuration: configure, examples. *)
From Coq Require Import Ascii QArith.
From Verif Require Import Base BaseLemmas Text TextLemmas Config ConfigSpec ConfigProofs ConfigProofs2.
Open Scope Z_scope.
Open Scope string_scope.
Open Scope list_scope.
Open Scope res_scope.

Lemma dget_map_val {V} (h : string * V -> V) (d : dict string V) k :
  dget (map (fun kc => (fst kc, h kc)) d) k = match dget d k with Some c => Some (h (k, c)) | None => None end.
Proof.
  induction d as [|[k' c] d IH]; [easy|]. cbn. destruct (eq_dec k k') as [->|]; [easy|]. exact IH.
Qed.
Lemma cget_cset {F} (c : @config F) k a v k' a' : dget c k <> None ->
  cget (cset c k a v) k' a' = if eqb (k', a') (k, a) then Some v else cget c k' a'.
Proof.
  intros H. unfold cget, cset. destruct (dget c k) as [d|] eqn:E; [|easy]. unfold eqb.
  destruct (eq_dec (k', a') (k, a)) as [X|X].
  - injection X as -> ->. now rewrite dget_dset_same, dget_dset_same.
  - destruct (eq_dec k' k) as [->|Hk].
    + rewrite dget_dset_same, E. rewrite dget_dset_other; [easy|congruence].
    + rewrite dget_dset_other; easy.
Qed.

Section P.
Context {F : Type} (parse_float : string -> option F) (q : Z -> positive -> F) (neglike : string -> bool).
Notation val := (pyval F).
Notation dflt := (default q).
Notation cfg := (default_config q).
Variable extra : list (mainopt F).
Hypothesis Hex : extra_ok q extra.
Notation mean := (meaning parse_float q extra).
Notation ps := (ps q extra).
Notation known := (known q extra).
Notation lastv := (last_value parse_float q extra).

Section Us.
Variable us : list use.
Definition ns : dict string val := fold_left (upd parse_float q extra) us (defaults ps).

Lemma raw_ns : filter (fun xv : string * val => negb (contains "__" (fst xv))) ns = ns.
Proof.
  assert (H : Forall (fun xv : string * val => contains "__" (fst xv) = false) ns).
  { apply Forall_forall. intros [x v] Hin. assert (Hx : In x (dkeys ns)) by now apply (in_map fst) in Hin.
    unfold ns in Hx. rewrite (ns_keys parse_float q extra Hex) in Hx. apply in_map_iff in Hx as (o & <- & Ho). cbn [fst].
    now apply (ps_dest_ok q extra Hex). }
  induction H as [|xv l Hx H IH]; [easy|]. cbn. rewrite Hx. cbn. now rewrite IH.
Qed.
Lemma ns_nodup : NoDup (map fst ns).
Proof. change (NoDup (dkeys ns)). unfold ns. rewrite (ns_keys parse_float q extra Hex). now apply ps_dests. Qed.
Lemma ns_key_known x : In x (map fst ns) -> exists g a, known g a /\ x = dest g a.
Proof.
  intros H. change (In x (dkeys ns)) in H. unfold ns in H. rewrite (ns_keys parse_float q extra Hex) in H.
  apply in_map_iff in H as (o & <- & Ho). now apply (ps_known q extra).
Qed.
Lemma search_known g a : known g a -> search_keys group_names (dest g a) = g.
Proof.
  destruct g as [k|]; unfold ConfigProofs2.known.
  - destruct (dflt k a) eqn:E; [|easy]. intros _. now destruct (attr_facts _ _ _ _ E) as (_ & _ & ?).
  - destruct (the_main q extra a) as [m|] eqn:E; [|easy]. intros _. destruct (the_main_Some _ _ _ _ E) as [H <-].
    now destruct (main_facts q extra Hex m H) as (_ & _ & ?).
Qed.
Lemma ns_value g a v : known g a -> In (dest g a, v) ns ->
  Some v = lastv g a (match g with Some k => dflt k a | None => option_map m_default (the_main q extra a) end) us.
Proof.
  intros Hk Hin. rewrite <- (ns_get parse_float q extra Hex us g a Hk). symmetry. apply In_dget; [exact ns_nodup|exact Hin].
Qed.
Lemma ns_In g a : known g a -> exists v, In (dest g a, v) ns.
Proof.
  intros Hk. destruct (known_ps q extra Hex g a Hk) as (o & Ho & E & _).
  assert (H : In (dest g a) (dkeys ns)). { unfold ns. rewrite (ns_keys parse_float q extra Hex), <- E. now apply in_map. }
  apply in_map_iff in H as ([x v] & E' & H). cbn in E'. subst x. now exists v.
Qed.
Lemma last_unknown g a : ~ known g a -> lastv g a None us = None.
Proof.
  intros Hk. unfold last_value. induction us as [|u us' IH]; [easy|]. cbn [fold_left].
  destruct (mean u) as [[[g' a'] v]|] eqn:E; [|exact IH].
  unfold eqb. destruct (eq_dec (g', a') (g, a)) as [X|]; [|exact IH]. injection X as -> ->.
  exfalso. apply Hk. now apply (meaning_known parse_float q extra _ _ _ _ E).
Qed.

Definition cfg1 : config := map (set_group group_names ns) cfg.
Definition gkey (k x : string) : option string :=
  match search_keys group_names x with Some k' => if eqb k' k then Some (drop (1 + String.length k') x) else None | None => None end.
Lemma set_group_fold k c : snd (set_group group_names ns (k, c)) =
  fold_left (fun c (xv : string * val) => match gkey k (fst xv) with Some a => dset c a (snd xv) | None => c end) ns c.
Proof.
  unfold set_group. cbn [fst snd]. generalize ns as l. intros l. revert c. induction l as [|[x v] l IH]; intros c; [easy|].
  cbn [fold_left fst snd]. rewrite IH. f_equal. unfold gkey. destruct (search_keys group_names x) as [k'|]; [|easy]. now destruct (eqb k' k).
Qed.
Lemma gkey_Some k x a : In x (map fst ns) -> gkey k x = Some a -> x = dest (Some k) a /\ known (Some k) a.
Proof.
  intros Hx. destruct (ns_key_known x Hx) as (g & b & Hk & ->). unfold gkey. rewrite (search_known g b Hk).
  destruct g as [k'|]; [|easy]. unfold eqb. destruct (eq_dec k' k) as [->|]; [|easy].
  cbn [dest]. change ("_" ++ b)%string with (String "_" b). rewrite drop_append. intros H; injection H as <-. easy.
Qed.
Lemma gkey_dest k a : known (Some k) a -> gkey k (dest (Some k) a) = Some a.
Proof.
  intros Hk. unfold gkey. rewrite (search_known _ _ Hk). unfold eqb. destruct (eq_dec k k); [|easy].
  cbn [dest]. change ("_" ++ a)%string with (String "_" a). now rewrite drop_append.
Qed.
Lemma cfg1_get k a : cget cfg1 k a = lastv (Some k) a (dflt k a) us.
Proof.
  unfold cget, cfg1.
  replace (map (set_group group_names ns) cfg) with (map (fun kc => (fst kc, snd (set_group group_names ns kc))) cfg) by (now apply map_ext).
  rewrite (dget_map_val (fun kc => snd (set_group group_names ns kc))).
  destruct (dget cfg k) as [c|] eqn:E.
  - rewrite set_group_fold. destruct (dflt k a) as [v|] eqn:Ed.
    + assert (Hk : known (Some k) a) by (unfold ConfigProofs2.known; now rewrite Ed).
      destruct (ns_In _ _ Hk) as (w & Hw). rewrite (fold_some (gkey k) ns c a (dest (Some k) a) w).
      * rewrite (ns_value _ _ _ Hk Hw). now rewrite Ed.
      * exact ns_nodup.
      * exact Hw.
      * now apply gkey_dest.
      * intros y Hy Ey. now apply gkey_Some in Ey as [-> _].
    + rewrite fold_none.
      * rewrite last_unknown; [|unfold ConfigProofs2.known; now rewrite Ed].
        unfold default, cget in Ed. now rewrite E in Ed.
      * intros x Hx Ex. apply gkey_Some in Ex as [_ Hk]; [|easy]. unfold ConfigProofs2.known in Hk. now rewrite Ed in Hk.
  - assert (Ed : dflt k a = None) by (unfold default, cget; now rewrite E).
    rewrite Ed, last_unknown; [easy|]. unfold ConfigProofs2.known. now rewrite Ed.
Qed.
Lemma main_get n : dget (set_main group_names ns []) n = expected_main parse_float q extra us n.
Proof.
  set (g := fun x => match search_keys group_names x with Some _ => None | None => Some x end).
  assert (E : set_main group_names ns [] = fold_left (fun c (xv : string * val) => match g (fst xv) with Some a => dset c a (snd xv) | None => c end) ns []).
  { unfold set_main. generalize (@nil (string * val)) as m, ns as l. intros m l. revert m. induction l as [|[x v] l IH]; intros m; [easy|].
    cbn [fold_left fst snd]. rewrite IH. f_equal. unfold g. now destruct (search_keys group_names x). }
  rewrite E. unfold expected_main. destruct (the_main q extra n) as [m|] eqn:Em.
  - assert (Hk : known None n) by (unfold ConfigProofs2.known; now rewrite Em).
    destruct (ns_In _ _ Hk) as (w & Hw). rewrite (fold_some g ns [] n n w).
    + rewrite (ns_value None n w Hk Hw). now rewrite Em.
    + exact ns_nodup.
    + exact Hw.
    + unfold g. pose proof (search_known None n Hk) as H. cbn [dest] in H. now rewrite H.
    + intros y _. unfold g. destruct (search_keys group_names y); [easy|]. intros H; now injection H.
  - rewrite fold_none.
    + cbn [option_map dget]. symmetry. apply last_unknown. unfold ConfigProofs2.known. now rewrite Em.
    + intros x Hx. unfold g. destruct (ns_key_known x Hx) as (g' & b & Hk & ->). rewrite (search_known _ _ Hk).
      destruct g' as [k|]; [easy|]. cbn [dest]. intros H. injection H as ->. unfold ConfigProofs2.known in Hk. now rewrite Em in Hk.
Qed.

(** the special option never leaves the strings "True" and "true" *)
Lemma move_value : exists v, lastv (Some "CTMARGS") "fwd_checkpoint_move" (dflt "CTMARGS" "fwd_checkpoint_move") us = Some v /\
  (forall s, v = VStr s -> lower s <> "true").
Proof.
  unfold last_value.
  assert (H : exists v, dflt "CTMARGS" "fwd_checkpoint_move" = Some v /\ (forall s, v = VStr s -> lower s <> "true")).
  { exists (VBool false). split; [reflexivity|easy]. }
  revert H. generalize (dflt "CTMARGS" "fwd_checkpoint_move") as d. induction us as [|u us' IH]; intros d H; [exact H|].
  cbn [fold_left]. apply IH. destruct (mean u) as [[[g a] v]|] eqn:E; [|exact H].
  unfold eqb. destruct (eq_dec (g, a) _) as [X|]; [|exact H]. injection X as -> ->. exists v. split; [easy|].
  destruct u as [k b|k b s e|[[s e]|]|n|n s e]; cbn [meaning] in E.
  - destruct (eqb _ move_key); [easy|]. destruct (dflt k b) as [[]|]; try easy. now injection E as _ _ <-.
  - destruct (dflt k b) as [[]|] eqn:Ed; try easy; destruct (denotes _ _ _); try easy; injection E as -> -> <-; discriminate Ed.
  - injection E as <-. intros s'. destruct (String.eqb_spec (lower s) "true"); [easy|]. destruct (lower s =? "false")%string; [easy|].
    intros H'. injection H' as <-. easy.
  - now injection E as <-.
  - destruct (the_main _ _ _) as [m|]; [|easy]. destruct (m_type m); easy.
  - destruct (the_main _ _ _) as [m|]; [|easy]. destruct (m_type m); [|easy]. destruct (denotes _ _ _); easy.
Qed.

Lemma configure_ok : dtype_supported parse_float q extra us ->
  exists cfg', configure cfg [] ns = Ok (cfg', set_main group_names ns []) /\ forall k a, cget cfg' k a = expected parse_float q extra us k a.
Proof.
  intros Hd. unfold configure. rewrite raw_ns. change (dkeys cfg) with group_names. fold cfg1.
  assert (Hg : dget cfg1 "GLOBALARGS" <> None) by (now cbn).
  unfold custom. rewrite cfg1_get.
  set (d := lastv _ _ _ us) in *. unfold dtype_supported in Hd. fold d in Hd.
  assert (Hs : exists s, d = Some (VStr s) /\ (s = "float64" \/ s = "complex128")) by (destruct Hd as [->| ->]; eauto).
  destruct Hs as (s & Es & Hs). rewrite Es.
  replace (if eqb s "float64" then _ else _) with (@Ok (@config F) (cset cfg1 "GLOBALARGS" "torch_dtype" (VDtype s))).
  2: { destruct Hs as [-> | ->]; reflexivity. }
  cbn [bind]. rewrite cget_cset by easy. change (eqb ("CTMARGS", "fwd_checkpoint_move") ("GLOBALARGS", "torch_dtype")) with false. cbv iota.
  rewrite cfg1_get. destruct move_value as (v & Ev & Hv). rewrite Ev.
  exists (cset cfg1 "GLOBALARGS" "torch_dtype" (VDtype s)). split.
  - destruct v as [| | | |s'| |]; try easy.
    destruct (eqb s' "True" || eqb s' "true")%bool eqn:Et; [|easy]. exfalso. apply (Hv s' eq_refl).
    apply Bool.orb_prop in Et as [Et|Et]; apply (@eqb_true string) in Et; now subst.
  - intros k a. rewrite cget_cset by easy. unfold expected. destruct (eqb (k, a) _); [|apply cfg1_get].
    fold d. now rewrite Es.
Qed.
Lemma configure_bad : ~ dtype_supported parse_float q extra us -> configure cfg [] ns = Err NotImplementedError.
Proof.
  intros Hd. unfold configure. rewrite raw_ns. change (dkeys cfg) with group_names. fold cfg1.
  unfold custom. rewrite cfg1_get. unfold dtype_supported in Hd.
  assert (Hk : exists v, lastv (Some "GLOBALARGS") "dtype" (dflt "GLOBALARGS" "dtype") us = Some v).
  { rewrite <- (ns_get parse_float q extra Hex us (Some "GLOBALARGS") "dtype") by now cbv.
    destruct (ns_In (Some "GLOBALARGS") "dtype") as (v & Hv); [now cbv|]. exists v. apply In_dget; [exact ns_nodup|exact Hv]. }
  destruct Hk as (v & Ev). rewrite Ev in *. destruct v as [| | | |s| |]; try easy.
  unfold eqb. destruct (eq_dec s "float64") as [->|]; [exfalso; apply Hd; now left|].
  destruct (eq_dec s "complex128") as [->|]; [exfalso; apply Hd; now right|]. easy.
Qed.
End Us.

Notation run := (run_config parse_float q neglike cfg (map option_of extra)).
Lemma run_eq argv : run argv = (ns <- parse_args parse_float neglike ps argv ;; configure cfg [] ns).
Proof.
  unfold run_config. pose proof (parser_ok q extra Hex) as H.
  destruct (get_args_parser q cfg) as [p|] eqn:E; [|easy]. cbn [bind] in *. rewrite H. reflexivity.
Qed.

Lemma options_set us : Forall (valid parse_float q neglike extra) us -> dtype_supported parse_float q extra us ->
  exists cfg' main', run (flat_map (tokens q) us) = Ok (cfg', main') /\
    (forall k a, cget cfg' k a = expected parse_float q extra us k a) /\
    (forall n, dget main' n = expected_main parse_float q extra us n).
Proof.
  intros Hv Hd. destruct (configure_ok us Hd) as (cfg' & E & H). exists cfg', (set_main group_names (ns us) []).
  split; [|split; [exact H|intros n; apply main_get]].
  rewrite run_eq, (parse_uses parse_float q neglike extra Hex us Hv). cbn [bind]. exact E.
Qed.
Lemma dtype_rejected us : Forall (valid parse_float q neglike extra) us -> ~ dtype_supported parse_float q extra us ->
  run (flat_map (tokens q) us) = Err NotImplementedError.
Proof.
  intros Hv Hd. rewrite run_eq, (parse_uses parse_float q neglike extra Hex us Hv). cbn [bind]. now apply configure_bad.
Qed.

(** ** texts that are not options *)
Definition registered (t : string) : Prop := starts ps t.
Lemma unknown_rejected us t rest : Forall (valid parse_float q neglike extra) us ->
  prefixb "--" t = true -> neglike t = false -> contains " " t = false -> ~ registered t ->
  run (flat_map (tokens q) us ++ t :: rest) = Err SystemExit.
Proof.
  intros Hv Hp Hn Hs Hr. rewrite run_eq. unfold parse_args.
  assert (H1 : find_option ps t = None).
  { destruct (find_option ps t) as [o|] eqn:E; [|easy]. apply find_option_Some in E as [Ho <-]. exfalso. apply Hr. exists o. auto. }
  assert (H2 : forall f a, split_eq t = Some (f, a) -> find_option ps f = None).
  { intros f a Es. destruct (find_option ps f) as [o|] eqn:E; [|easy]. apply find_option_Some in E as [Ho <-]. exfalso. apply Hr. exists o. split; [easy|].
    right. exists a. now apply split_eq_Some in Es. }
  assert (Ha : is_arg neglike ps t = false).
  { unfold is_arg. rewrite (prefix1 t Hp), H1. cbn [negb]. destruct (eqb t "-") eqn:E.
    - apply (@eqb_true string) in E. now subst t.
    - destruct (split_eq t) as [[f a]|]; [rewrite (H2 f a eq_refl)|]; now rewrite Hn, Hs. }
  destruct (loop_uses parse_float q neglike extra Hex us (t :: rest) (defaults ps) (length (flat_map (tokens q) us ++ t :: rest)) Hv) as (fuel & Hf & ->).
  - right. eauto.
  - easy.
  - destruct fuel as [|fuel]; [cbn in Hf; lia|]. cbn [parse_loop]. rewrite H1.
    destruct (split_eq t) as [[f a]|]; [rewrite (H2 f a eq_refl)|]; easy.
Qed.

Lemma ps_in_flags o : In o ps -> In (o_flag o) (flags q extra).
Proof.
  intros H. unfold flags. apply in_or_app. apply In_ps in H as [H|(m & H & ->)].
  - right.
    assert (Hc : forallb (fun o => existsb (String.eqb (o_flag o)) (flat_map (fun kc => map (fun av : string * val => match snd av with
                                     | VBool true => ("--" ++ fst kc ++ "_no_" ++ fst av)%string
                                     | _ => ("--" ++ fst kc ++ "_" ++ fst av)%string
                                     end) (snd kc)) cfg)) (groups q) = true) by (vm_compute; reflexivity).
    rewrite forallb_forall in Hc. specialize (Hc o H). apply existsb_exists in Hc as (f & Hf & E). apply String.eqb_eq in E. now rewrite E.
  - left. apply in_map_iff. now exists m.
Qed.
Lemma unknown_option us t rest : Forall (valid parse_float q neglike extra) us -> unregistered q neglike extra t ->
  run (flat_map (tokens q) us ++ t :: rest) = Err SystemExit.
Proof.
  intros Hv (H1 & H2 & H3 & H4 & H5). apply unknown_rejected; try easy.
  intros (o & Ho & [->|[s ->]]).
  - now apply H4, ps_in_flags.
  - now apply (H5 (o_flag o) s), ps_in_flags.
Qed.

(** ** the move sequence *)
Lemma move_sequence us s e us' : Forall (valid parse_float q neglike extra) (us ++ Value "CTMARGS" "ctm_move_sequence" s e :: us') ->
  dtype_supported parse_float q extra (us ++ Value "CTMARGS" "ctm_move_sequence" s e :: us') ->
  (forall s' e', In (Value "CTMARGS" "ctm_move_sequence" s' e') us' -> False) -> s <> "" ->
  exists cfg' main', run (flat_map (tokens q) (us ++ Value "CTMARGS" "ctm_move_sequence" s e :: us')) = Ok (cfg', main') /\
    ~ directions (cget cfg' "CTMARGS" "ctm_move_sequence").
Proof.
  intros Hv Hd Hn Hs. destruct (options_set _ Hv Hd) as (cfg' & main' & E & H & _). exists cfg', main'. split; [exact E|].
  rewrite H. unfold expected. change (eqb ("CTMARGS", "ctm_move_sequence") ("GLOBALARGS", "torch_dtype")) with false. cbv iota.
  unfold last_value. rewrite fold_left_app. cbn [fold_left].
  set (d := fold_left _ us _). set (v := match meaning _ _ _ _ with Some _ => _ | None => d end).
  assert (Ev : v = Some (VList (map LChar (letters s)))) by reflexivity.
  clearbody v. assert (Hl : fold_left (fun v0 u => match mean u with Some (g', a', v') => if eqb (g', a') (Some "CTMARGS", "ctm_move_sequence") then Some v' else v0 | None => v0 end) us' v = v).
  { clear -Hn. induction us' as [|u l IH]; [easy|]. cbn [fold_left].
    replace (match mean u with Some _ => _ | None => v end) with v.
    - apply IH. intros s' e' Hin. apply (Hn s' e'). now right.
    - destruct (mean u) as [[[g a] w]|] eqn:Em; [|easy]. unfold eqb. destruct (eq_dec (g, a) _) as [X|]; [|easy]. exfalso.
      injection X as -> ->. destruct u as [k b|k b s' e'|[[s' e']|]|n|n s' e']; cbn [meaning] in Em.
      + destruct (eqb _ move_key); [easy|]. destruct (dflt k b) as [[]|] eqn:Ed; try easy. injection Em as -> -> <-. discriminate Ed.
      + assert (k = "CTMARGS" /\ b = "ctm_move_sequence") as [-> ->].
        { destruct (dflt k b) as [[]|]; try easy; destruct (denotes _ _ _); try easy; now injection Em as -> -> _. }
        apply (Hn s' e'). now left.
      + easy.
      + easy.
      + destruct (the_main _ _ _) as [m|]; [|easy]. destruct (m_type m); easy.
      + destruct (the_main _ _ _) as [m|]; [|easy]. destruct (m_type m); [|easy]. destruct (denotes _ _ _); easy. }
  rewrite Hl, Ev. intros (ds & X). injection X as X. destruct s as [|c s]; [easy|]. cbn in X. destruct ds; easy.
Qed.
End P.

(** ** a concrete command line *)
Definition neg_int (s : string) : bool := prefixb "-" s && match parse_int s with Some _ => true | None => false end.
Definition ex_extra : list (mainopt Z) := [Build_mainopt "j1" (Some TyFloat) (VFloat 1); Build_mainopt "tiling" (Some TyStr) (VStr "BIPARTITE"); Build_mainopt "force_cpu" None (VBool false)].
Definition ex_uses : list use :=
  [Value "GLOBALARGS" "dtype" "complex128" false; Switch "PEPSARGS" "build_dl"; MValue "j1" "-5" false; Value "CTMARGS" "ctm_max_iter" "7" true;
   Move None; MSwitch "opt_resume_override_params"; Value "CTMARGS" "ctm_max_iter" "9" false; MValue "tiling" "4SITE" true].
Example config_example :
  flat_map (tokens (fun n d => n)) ex_uses =
    ["--GLOBALARGS_dtype"; "complex128"; "--PEPSARGS_no_build_dl"; "--j1"; "-5"; "--CTMARGS_ctm_max_iter=7"; "--CTMARGS_fwd_checkpoint_move";
     "--opt_resume_override_params"; "--CTMARGS_ctm_max_iter"; "9"; "--tiling=4SITE"] /\
  extra_ok (fun n d => n) ex_extra /\ Forall (valid parse_int (fun n d => n) neg_int ex_extra) ex_uses /\
  dtype_supported parse_int (fun n d => n) ex_extra ex_uses /\
  match run_config parse_int (fun n d => n) neg_int (default_config (fun n d => n)) (map option_of ex_extra) (flat_map (tokens (fun n d => n)) ex_uses) with
  | Ok (c, m) =>
      cget c "CTMARGS" "ctm_max_iter" = Some (VInt 9) /\ cget c "GLOBALARGS" "torch_dtype" = Some (VDtype "complex128") /\
      cget c "PEPSARGS" "build_dl" = Some (VBool false) /\ cget c "CTMARGS" "fwd_checkpoint_move" = Some (VBool true) /\
      cget c "OPTARGS" "line_search" = Some (VStr "default") /\ dget m "j1" = Some (VFloat (-5)) /\ dget m "tiling" = Some (VStr "4SITE") /\
      dget m "chi" = Some (VInt 20) /\ dget m "force_cpu" = Some (VBool false)
  | Err _ => False
  end.
Proof.
  split; [reflexivity|]. split; [|split; [|split]].
  - split.
    + apply nodupb_spec. vm_compute. reflexivity.
    + intros m Hm. assert (H : forallb (fun m => forallb (fun g => negb (contains g (m_name m))) group_names && negb (contains "__" (m_name m)) && negb (contains "=" (m_name m))) ex_extra = true) by (vm_compute; reflexivity).
      rewrite forallb_forall in H. specialize (H m Hm). apply andb_prop in H as [H H3]. apply andb_prop in H as [H1 H2].
      apply Bool.negb_true_iff in H2, H3. split; [|easy]. intros g Hg. rewrite forallb_forall in H1. specialize (H1 g Hg). now apply Bool.negb_true_iff in H1.
  - repeat constructor; vm_compute; congruence.
  - right. vm_compute. reflexivity.
  - vm_compute. repeat split; reflexivity.
Qed.
(** abbreviated options, values without options, switches with values and wrong numbers are rejected *)
Example config_rejects :
  forall argv, In argv [["--CTMARGS_ctm_max"; "7"]; ["7"]; ["--PEPSARGS_no_build_dl=1"]; ["--chi"; "x"]; ["--chi"]; ["--chi"; "--seed"; "1"]; ["--PEPSARGS_build_dl"]; ["--GLOBALARGS_torch_dtype"; "complex128"]] ->
  run_config parse_int (fun n d => n) neg_int (default_config (fun n d => n)) (map option_of ex_extra) argv = Err SystemExit.
Proof. intros argv H. repeat (destruct H as [<-|H]; [vm_compute; reflexivity|]). easy. Qed.
(** a program option whose name contains a group name is stored in that group, under a truncated name, and a name with two
    underscores is lost *)
Example config_bad_names :
  match run_config parse_int (fun n d => n) neg_int (default_config (fun n d => n))
    (map option_of [Build_mainopt "my_CTMARGS" (Some TyStr) VNone; Build_mainopt "a__b" (Some TyStr) VNone]) ["--my_CTMARGS=x"; "--a__b=y"] with
  | Ok (c, m) => dget m "my_CTMARGS" = None /\ cget c "CTMARGS" "GS" = Some (VStr "x") /\ dget m "a__b" = None
  | Err _ => False
  end.
Proof. vm_compute. repeat split; reflexivity. Qed.
