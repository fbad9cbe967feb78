(** C28: command line options set exactly the named configuration value. *)
From Verif Require Import Base Text Config ConfigSpec ConfigProofs3.
Open Scope string_scope.
Open Scope list_scope.

(** For every sequence of valid uses of options, every attribute of the four groups and every
    attribute of the main program ends up with the value of the last use that names it, or with
    its default. *)
Theorem C28_options_set : forall {F} (parse_float : string -> option F) (q : Z -> positive -> F) (neglike : string -> bool) (extra : list (mainopt F)),
  extra_ok q extra ->
  forall us, Forall (valid parse_float q neglike extra) us -> dtype_supported parse_float q extra us ->
  exists cfg main, run_config parse_float q neglike (default_config q) (map option_of extra) (flat_map (tokens q) us) = Ok (cfg, main) /\
    (forall k a, cget cfg k a = expected parse_float q extra us k a) /\
    (forall n, dget main n = expected_main parse_float q extra us n).
Proof. exact @options_set. Qed.
Print Assumptions C28_options_set.

(** an unsupported dtype is rejected *)
Theorem C28_dtype_rejected : forall {F} (parse_float : string -> option F) (q : Z -> positive -> F) (neglike : string -> bool) (extra : list (mainopt F)),
  extra_ok q extra ->
  forall us, Forall (valid parse_float q neglike extra) us -> ~ dtype_supported parse_float q extra us ->
  run_config parse_float q neglike (default_config q) (map option_of extra) (flat_map (tokens q) us) = Err NotImplementedError.
Proof. exact @dtype_rejected. Qed.
Print Assumptions C28_dtype_rejected.

(** an option that is not registered ends the program, whatever precedes or follows it *)
Theorem C28_unknown_rejected : forall {F} (parse_float : string -> option F) (q : Z -> positive -> F) (neglike : string -> bool) (extra : list (mainopt F)),
  extra_ok q extra ->
  forall us t rest, Forall (valid parse_float q neglike extra) us -> unregistered q neglike extra t ->
  run_config parse_float q neglike (default_config q) (map option_of extra) (flat_map (tokens q) us ++ t :: rest) = Err SystemExit.
Proof. exact @unknown_option. Qed.
Print Assumptions C28_unknown_rejected.

(** The option for the sequence of CTM moves never yields a sequence of directions: its text is
    split into characters. *)
Theorem C28_move_sequence_refuted : forall {F} (parse_float : string -> option F) (q : Z -> positive -> F) (neglike : string -> bool) (extra : list (mainopt F)),
  extra_ok q extra ->
  forall us s e us', Forall (valid parse_float q neglike extra) (us ++ Value "CTMARGS" "ctm_move_sequence" s e :: us') ->
  dtype_supported parse_float q extra (us ++ Value "CTMARGS" "ctm_move_sequence" s e :: us') ->
  (forall s' e', In (Value "CTMARGS" "ctm_move_sequence" s' e') us' -> False) -> s <> "" ->
  exists cfg main, run_config parse_float q neglike (default_config q) (map option_of extra)
      (flat_map (tokens q) (us ++ Value "CTMARGS" "ctm_move_sequence" s e :: us')) = Ok (cfg, main) /\
    ~ directions (cget cfg "CTMARGS" "ctm_move_sequence").
Proof. exact @move_sequence. Qed.
Print Assumptions C28_move_sequence_refuted.
