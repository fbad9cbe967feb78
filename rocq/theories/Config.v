(** Model of the command line configuration, config.py:24-129, with the defaults of
    config.py:215-225, 234-238, 369-409, 480-499.

    The part of argparse that is used: options that store a constant, options with one value,
    one option with an optional value; "--opt value" and "--opt=value"; exact option names
    (allow_abbrev=False); no positional arguments.  Errors of argparse are SystemExit.  A token
    "--" is not treated specially (it ends in SystemExit).  Floating point numbers are abstract.
    Options are registered in the order of the attributes (Python: sorted); the order has no
    effect on the result.  Not modelled: help texts, the log file opened at config.py:129. *)
From Coq Require Import Ascii.
From Verif Require Import Base Text.
Open Scope string_scope.
Open Scope list_scope.
Open Scope res_scope.

(** ** values *)
Inductive lelem := LDir (c : coord) | LChar (c : ascii).
Section Values.
Variable F : Type.
Inductive pyval :=
  | VNone | VBool (b : bool) | VInt (z : Z) | VFloat (x : F) | VStr (s : string) | VDtype (s : string) | VList (l : list lelem).
End Values.
Arguments VNone {F}. Arguments VBool {F}. Arguments VInt {F}. Arguments VFloat {F}. Arguments VStr {F}. Arguments VDtype {F}. Arguments VList {F}.

Inductive pytype := TyInt | TyFloat | TyStr | TyDtype | TyList | TyNone.

Section Config.
Context {F : Type} (parse_float : string -> option F) (q : Z -> positive -> F).
Notation val := (pyval F).
(** argparse's negative number pattern *)
Variable neglike : string -> bool.

(** ** argparse *)
Inductive action := StoreTrue | StoreFalse | Store (t : pytype) | TrueOrString.
Record option_ := { o_flag : string; o_dest : string; o_act : action; o_default : val }.

(** add_argument: a second option of the same name is rejected *)
Definition add_argument (ps : list option_) (o : option_) : res (list option_) :=
  if existsb (fun p => eqb (o_flag p) (o_flag o)) ps then Err ValueError else Ok (ps ++ [o]).
Definition add_arguments : list option_ -> list option_ -> res (list option_) := fun os ps => foldM add_argument os ps.

Fixpoint chars (s : string) : list lelem := match s with EmptyString => [] | String c s' => LChar c :: chars s' end.
(** [type(s)] *)
Definition convert (t : pytype) (s : string) : option val :=
  match t with
  | TyInt => option_map VInt (parse_int s)
  | TyFloat => option_map VFloat (parse_float s)
  | TyStr => Some (VStr s)
  | TyList => Some (VList (chars s))
  | TyDtype | TyNone => None
  end.

Fixpoint find_option (ps : list option_) (f : string) : option option_ :=
  match ps with [] => None | p :: ps' => if eq_dec (o_flag p) f then Some p else find_option ps' f end.

(** text before and after the first "=" *)
Fixpoint split_eq (s : string) : option (string * string) :=
  match s with
  | EmptyString => None
  | String c s' =>
      if Ascii.eqb c "="%char then Some ("", s')
      else match split_eq s' with Some (a, b) => Some (String c a, b) | None => None end
  end.

(** whether argparse takes a token for an argument (and not for an option) *)
Definition is_arg (ps : list option_) (s : string) : bool :=
  if negb (prefixb "-" s) then true
  else match find_option ps s with
  | Some _ => false
  | None =>
      if eqb s "-" then true
      else match split_eq s with
      | Some (f, _) => match find_option ps f with Some _ => false | None => neglike s || contains " " s end
      | None => neglike s || contains " " s
      end
  end.

Definition setns (ns : dict string val) (d : string) (v : val) : dict string val := dset ns d v.

(** [_storeTrueOrString], config.py:24-33; the constant for a missing value is True *)
Definition true_or_string (a : option string) : val :=
  match a with
  | None => VBool true
  | Some s => if eqb (lower s) "true" || eqb (lower s) "false" then VBool (eqb (lower s) "true") else VStr s
  end.

(** one option with its explicit argument ("--opt=x"), followed by [rest] *)
Definition take_option (ps : list option_) (o : option_) (explicit : option string) (rest : list string) (ns : dict string val) :
  res (dict string val * list string) :=
  match o_act o, explicit with
  | StoreTrue, None => Ok (setns ns (o_dest o) (VBool true), rest)
  | StoreFalse, None => Ok (setns ns (o_dest o) (VBool false), rest)
  | StoreTrue, Some _ | StoreFalse, Some _ => Err SystemExit
  | Store t, Some s => match convert t s with Some v => Ok (setns ns (o_dest o) v, rest) | None => Err SystemExit end
  | Store t, None =>
      match rest with
      | s :: rest' =>
          if is_arg ps s then match convert t s with Some v => Ok (setns ns (o_dest o) v, rest') | None => Err SystemExit end
          else Err SystemExit
      | [] => Err SystemExit
      end
  | TrueOrString, Some s => Ok (setns ns (o_dest o) (true_or_string (Some s)), rest)
  | TrueOrString, None =>
      match rest with
      | s :: rest' => if is_arg ps s then Ok (setns ns (o_dest o) (true_or_string (Some s)), rest') else Ok (setns ns (o_dest o) (true_or_string None), rest)
      | [] => Ok (setns ns (o_dest o) (true_or_string None), rest)
      end
  end.

Fixpoint parse_loop (fuel : nat) (ps : list option_) (argv : list string) (ns : dict string val) : res (dict string val) :=
  match argv with
  | [] => Ok ns
  | s :: rest =>
      match fuel with
      | O => Err OutOfFuel
      | S fuel' =>
          ' (ns', rest') <-
            match find_option ps s with
            | Some o => take_option ps o None rest ns
            | None => match split_eq s with
                      | Some (f, a) => match find_option ps f with Some o => take_option ps o (Some a) rest ns | None => Err SystemExit end
                      | None => Err SystemExit
                      end
            end ;;
          parse_loop fuel' ps rest' ns'
      end
  end.
(** the namespace before parsing: an attribute that exists is kept *)
Definition defaults (ps : list option_) : dict string val :=
  fold_left (fun ns o => if dmem ns (o_dest o) then ns else dset ns (o_dest o) (o_default o)) ps [].
Definition parse_args (ps : list option_) (argv : list string) : res (dict string val) :=
  parse_loop (length argv) ps argv (defaults ps).

(** ** the parser, config.py:36-79 *)
(** configuration objects by class name *)
Definition config := dict string (dict string val).

Definition type_of (v : val) : pytype :=
  match v with VNone | VBool _ => TyNone | VInt _ => TyInt | VFloat _ => TyFloat | VStr _ => TyStr | VDtype _ => TyDtype | VList _ => TyList end.

(** config.py:38-49 *)
Definition main_options : list option_ :=
  [ {| o_flag := "--omp_cores"; o_dest := "omp_cores"; o_act := Store TyInt; o_default := VInt 1 |};
    {| o_flag := "--pattern"; o_dest := "pattern"; o_act := Store TyStr; o_default := VNone |};
    {| o_flag := "--instate"; o_dest := "instate"; o_act := Store TyStr; o_default := VNone |};
    {| o_flag := "--instate_noise"; o_dest := "instate_noise"; o_act := Store TyFloat; o_default := VFloat (q 0 1) |};
    {| o_flag := "--ipeps_init_type"; o_dest := "ipeps_init_type"; o_act := Store TyStr; o_default := VStr "RANDOM" |};
    {| o_flag := "--out_prefix"; o_dest := "out_prefix"; o_act := Store TyStr; o_default := VStr "output" |};
    {| o_flag := "--bond_dim"; o_dest := "bond_dim"; o_act := Store TyInt; o_default := VInt 1 |};
    {| o_flag := "--chi"; o_dest := "chi"; o_act := Store TyInt; o_default := VInt 20 |};
    {| o_flag := "--opt_max_iter"; o_dest := "opt_max_iter"; o_act := Store TyInt; o_default := VInt 100 |};
    {| o_flag := "--opt_resume"; o_dest := "opt_resume"; o_act := Store TyStr; o_default := VNone |};
    {| o_flag := "--opt_resume_override_params"; o_dest := "opt_resume_override_params"; o_act := StoreTrue; o_default := VBool false |};
    {| o_flag := "--seed"; o_dest := "seed"; o_act := Store TyInt; o_default := VInt 0 |} ].

(** config.py:57-68 for one attribute *)
Definition attr_option (k x : string) (v : val) : option option_ :=
  let n := (k ++ "_" ++ x)%string in
  if eqb n "CTMARGS_fwd_checkpoint_move" then None
  else match v with
  | VBool false => Some {| o_flag := "--" ++ n; o_dest := n; o_act := StoreTrue; o_default := VBool false |}
  | VBool true => Some {| o_flag := "--" ++ k ++ "_" ++ "no_" ++ x; o_dest := n; o_act := StoreFalse; o_default := VBool true |}
  | _ => Some {| o_flag := "--" ++ n; o_dest := n; o_act := Store (type_of v); o_default := v |}
  end%string.
Definition opt_list {A} (o : option A) : list A := match o with Some a => [a] | None => [] end.
(** config.py:56-57 *)
Definition group_options (k : string) (c : dict string val) : list option_ :=
  flat_map (fun xv => opt_list (attr_option k (fst xv) (snd xv))) (filter (fun xv => negb (contains "__" (fst xv))) c).
(** config.py:70-77 *)
Definition move_option : option_ :=
  {| o_flag := "--CTMARGS_fwd_checkpoint_move"; o_dest := "CTMARGS_fwd_checkpoint_move"; o_act := TrueOrString; o_default := VBool false |}.

Definition get_args_parser (cfg : config) : res (list option_) :=
  add_arguments (main_options ++ flat_map (fun kc => group_options (fst kc) (snd kc)) cfg ++ [move_option]) [].

(** ** configure, config.py:81-121 *)
(** config.py:90-93 *)
Definition search_keys (keys : list string) (x : string) : option string := find (fun k => contains k x) keys.
(** [a[n:]] *)
Fixpoint drop (n : nat) (s : string) : string :=
  match n, s with S n', String _ s' => drop n' s' | _, _ => s end.

(** config.py:94-110: attributes of one group and of main_args *)
Definition set_group (keys : list string) (ns : dict string val) (kc : string * dict string val) : string * dict string val :=
  (fst kc,
   fold_left (fun c (xv : string * val) =>
     match search_keys keys (fst xv) with
     | Some k => if eqb k (fst kc) then dset c (drop (1 + String.length k) (fst xv)) (snd xv) else c
     | None => c
     end) ns (snd kc)).
Definition set_main (keys : list string) (ns : dict string val) (m : dict string val) : dict string val :=
  fold_left (fun m (xv : string * val) => match search_keys keys (fst xv) with Some _ => m | None => dset m (fst xv) (snd xv) end) ns m.

Definition cget (cfg : config) (k a : string) : option val := match dget cfg k with Some c => dget c a | None => None end.
Definition cset (cfg : config) (k a : string) (v : val) : config :=
  match dget cfg k with Some c => dset cfg k (dset c a v) | None => cfg end.

(** config.py:113-121 *)
Definition custom (cfg : config) : res config :=
  cfg <- match cget cfg "GLOBALARGS" "dtype" with
         | Some (VStr s) =>
             if eqb s "float64" then Ok (cset cfg "GLOBALARGS" "torch_dtype" (VDtype "float64"))
             else if eqb s "complex128" then Ok (cset cfg "GLOBALARGS" "torch_dtype" (VDtype "complex128"))
             else Err NotImplementedError
         | Some _ => Err NotImplementedError
         | None => Err AttributeError
         end ;;
  match cget cfg "CTMARGS" "fwd_checkpoint_move" with
  | Some (VStr s) => if eqb s "True" || eqb s "true" then Ok (cset cfg "CTMARGS" "fwd_checkpoint_move" (VBool true)) else Ok cfg
  | Some _ => Ok cfg
  | None => Err AttributeError
  end.

Definition configure (cfg : config) (main : dict string val) (ns : dict string val) : res (config * dict string val) :=
  let raw := filter (fun xv => negb (contains "__" (fst xv))) ns in
  let keys := dkeys cfg in
  cfg' <- custom (map (set_group keys raw) cfg) ;;
  Ok (cfg', set_main keys raw main).

(** a program: its own options [extra], then parse_args and configure *)
Definition run_config (cfg : config) (extra : list option_) (argv : list string) : res (config * dict string val) :=
  ps <- get_args_parser cfg ;; ps <- add_arguments extra ps ;; ns <- parse_args ps argv ;; configure cfg [] ns.

(** ** the defaults *)
Definition default_config : config :=
  [ ("GLOBALARGS", [ ("tensor_io_format", VStr "legacy"); ("dtype", VStr "float64"); ("torch_dtype", VDtype "float64"); ("device", VStr "cpu");
      ("offload_to_gpu", VStr "None"); ("oe_backend", VStr "torch"); ("oe_cuquantum_slicing", VBool false); ("cuda_mem_profile", VBool false); ("verbosity_oe", VInt 0) ]);
    ("PEPSARGS", [ ("build_dl", VBool true); ("build_dl_open", VBool false); ("quasi_gauge_max_iter", VInt 1000000); ("quasi_gauge_tol", VFloat (q 1 100000000)) ]);
    ("CTMARGS", [ ("ctm_max_iter", VInt 50); ("ctm_warmup_iter", VInt (-1)); ("ctm_env_init_type", VStr "CTMRG"); ("ctm_conv_tol", VFloat (q 1 100000000));
      ("ctm_absorb_normalization", VStr "inf"); ("dtype_rdm", VStr "DEFAULT"); ("fpcm_init_iter", VInt 1); ("fpcm_freq", VInt (-1));
      ("fpcm_isogauge_tol", VFloat (q 1 100000000000000)); ("fpcm_fpt_tol", VFloat (q 1 100000000)); ("conv_check_cpu", VBool false); ("projector_method", VStr "4X4");
      ("projector_svd_method", VStr "DEFAULT"); ("warmup_projector_svd_method", VStr "DEFAULT"); ("projector_full_matrices", VBool true);
      ("projector_svd_reltol", VFloat (q 1 100000000)); ("projector_svd_reltol_block", VFloat (q 0 1)); ("projector_eps_multiplet", VFloat (q 1 100000000));
      ("projector_multiplet_abstol", VFloat (q 1 100000000000000)); ("projector_propack_extra_states", VInt 1); ("projector_rsvd_niter", VInt 2);
      ("ad_decomp_reg", VFloat (q 1 1000000000000)); ("ctm_move_sequence", VList [LDir (0, -1); LDir (-1, 0); LDir (0, 1); LDir (1, 0)]%Z);
      ("randomize_ctm_move_sequence", VBool false); ("ctm_force_dl", VBool false); ("ctm_logging", VBool false); ("verbosity_initialization", VInt 0);
      ("verbosity_ctm_convergence", VInt 0); ("verbosity_projectors", VInt 0); ("verbosity_ctm_move", VInt 0); ("verbosity_fpcm_move", VInt 0); ("verbosity_rdm", VInt 0);
      ("fwd_checkpoint_c2x2", VBool false); ("fwd_checkpoint_halves", VBool false); ("fwd_checkpoint_projectors", VBool false); ("fwd_checkpoint_absorb", VBool false);
      ("fwd_checkpoint_move", VBool false); ("fwd_checkpoint_loop_rdm", VBool false); ("fwd_svds_thresh", VFloat (q 2 10)) ]);
    ("OPTARGS", [ ("lr", VFloat (q 1 1)); ("momentum", VFloat (q 0 1)); ("dampening", VFloat (q 0 1)); ("tolerance_grad", VFloat (q 1 100000)); ("tolerance_change", VFloat (q 1 1000000000));
      ("opt_ctm_reinit", VBool true); ("env_sens_scale", VFloat (q 10 1)); ("env_sens_regauge", VBool false); ("line_search", VStr "default"); ("line_search_ctm_reinit", VBool true);
      ("line_search_svd_method", VStr "DEFAULT"); ("line_search_tol", VFloat (q 1 100000000)); ("fd_eps", VFloat (q 1 10000)); ("fd_ctm_reinit", VBool true);
      ("history_size", VInt 100); ("max_iter_per_epoch", VInt 1); ("verbosity_opt_epoch", VInt 1); ("opt_logging", VBool true); ("opt_log_grad", VBool false) ]) ].
End Config.
