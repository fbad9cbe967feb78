(** What a command line means, independently of argparse and of configure. *)
From Coq Require Import Ascii.
From Verif Require Import Base Text Config.
Open Scope string_scope.
Open Scope list_scope.

(** an option of the main program: a switch (no type) or a value of some type *)
Record mainopt (F : Type) := { m_name : string; m_type : option pytype; m_default : pyval F }.
Arguments m_name {F}. Arguments m_type {F}. Arguments m_default {F}. Arguments Build_mainopt {F}.

(** one use of an option: a boolean attribute of a group, another attribute of a group, the
    special option of config.py:70, a switch or a value of the main program; [eqform] selects
    "--name=text" instead of "--name" "text" *)
Inductive use :=
  | Switch (k a : string)
  | Value (k a text : string) (eqform : bool)
  | Move (text : option (string * bool))
  | MSwitch (n : string)
  | MValue (n text : string) (eqform : bool).

Definition group_names : list string := ["GLOBALARGS"; "PEPSARGS"; "CTMARGS"; "OPTARGS"].

Section Spec.
Context {F : Type} (parse_float : string -> option F) (q : Z -> positive -> F) (neglike : string -> bool).
Notation val := (pyval F).

(** documented options of every program: name, type, default *)
Definition main_table : list (mainopt F) :=
  [ Build_mainopt "omp_cores" (Some TyInt) (VInt 1); Build_mainopt "pattern" (Some TyStr) VNone; Build_mainopt "instate" (Some TyStr) VNone;
    Build_mainopt "instate_noise" (Some TyFloat) (VFloat (q 0 1)); Build_mainopt "ipeps_init_type" (Some TyStr) (VStr "RANDOM");
    Build_mainopt "out_prefix" (Some TyStr) (VStr "output"); Build_mainopt "bond_dim" (Some TyInt) (VInt 1); Build_mainopt "chi" (Some TyInt) (VInt 20);
    Build_mainopt "opt_max_iter" (Some TyInt) (VInt 100); Build_mainopt "opt_resume" (Some TyStr) VNone;
    Build_mainopt "opt_resume_override_params" None (VBool false); Build_mainopt "seed" (Some TyInt) (VInt 0) ].

Variable extra : list (mainopt F).
Definition program := main_table ++ extra.

(** the program's own add_argument calls *)
Definition option_of (m : mainopt F) : option_ :=
  {| o_flag := ("--" ++ m_name m)%string; o_dest := m_name m;
     o_act := match m_type m with None => StoreTrue | Some t => Store t end; o_default := m_default m |}.

(** names a program may use for its own options *)
Definition extra_ok : Prop :=
  NoDup (map m_name program) /\
  forall m, In m extra ->
    (forall g, In g group_names -> contains g (m_name m) = false) /\ contains "__" (m_name m) = false /\ contains "=" (m_name m) = false.

Definition default (k a : string) : option val := cget (default_config q) k a.

Fixpoint letters (s : string) : list ascii := match s with EmptyString => [] | String c s' => c :: letters s' end.
(** the value a text denotes for a type *)
Definition denotes (t : pytype) (s : string) : option val :=
  match t with
  | TyInt => match parse_int s with Some z => Some (VInt z) | None => None end
  | TyFloat => match parse_float s with Some x => Some (VFloat x) | None => None end
  | TyStr => Some (VStr s)
  | TyList => Some (VList (map LChar (letters s)))
  | TyDtype | TyNone => None
  end.

Definition move_key := ("CTMARGS", "fwd_checkpoint_move").

Definition the_main (n : string) : option (mainopt F) := find (fun m => String.eqb (m_name m) n) program.

(** group (None: main program), attribute and value set by a use; None if the use is not valid *)
Definition meaning (u : use) : option (option string * string * val) :=
  match u with
  | Switch k a =>
      if eqb (k, a) move_key then None
      else match default k a with Some (VBool b) => Some (Some k, a, VBool (negb b)) | _ => None end
  | Value k a s _ =>
      let d t := match denotes t s with Some v => Some (Some k, a, v) | None => None end in
      match default k a with
      | Some (VInt _) => d TyInt | Some (VFloat _) => d TyFloat | Some (VStr _) => d TyStr | Some (VList _) => d TyList
      | _ => None
      end
  | Move None => Some (Some "CTMARGS", "fwd_checkpoint_move", VBool true)
  | Move (Some (s, _)) =>
      Some (Some "CTMARGS", "fwd_checkpoint_move",
            if String.eqb (lower s) "true" then VBool true else if String.eqb (lower s) "false" then VBool false else VStr s)
  | MSwitch n => match the_main n with Some m => match m_type m with None => Some (None, n, VBool true) | Some _ => None end | None => None end
  | MValue n s _ =>
      match the_main n with
      | Some m => match m_type m with Some t => match denotes t s with Some v => Some (None, n, v) | None => None end | None => None end
      | None => None
      end
  end.

(** a text that may stand as a separate argument: it does not look like an option *)
Definition argument (s : string) : bool := negb (prefixb "-" s) || neglike s && negb (prefixb "--" s).

Definition with_text (flag s : string) (eqform : bool) : list string := if eqform then [(flag ++ "=" ++ s)%string] else [flag; s].
Definition tokens (u : use) : list string :=
  match u with
  | Switch k a => match default k a with Some (VBool true) => [("--" ++ k ++ "_no_" ++ a)%string] | _ => [("--" ++ k ++ "_" ++ a)%string] end
  | Value k a s e => with_text ("--" ++ k ++ "_" ++ a) s e
  | Move None => ["--CTMARGS_fwd_checkpoint_move"]
  | Move (Some (s, e)) => with_text "--CTMARGS_fwd_checkpoint_move" s e
  | MSwitch n => [("--" ++ n)%string]
  | MValue n s e => with_text ("--" ++ n) s e
  end.
Definition text_ok (u : use) : Prop :=
  match u with Value _ _ s false | Move (Some (s, false)) | MValue _ s false => argument s = true | _ => True end.

(** the value after the uses: the last one that names the attribute wins *)
Definition last_value (g : option string) (a : string) (d : option val) (us : list use) : option val :=
  fold_left (fun v u => match meaning u with Some (g', a', v') => if eqb (g', a') (g, a) then Some v' else v | None => v end) us d.

Definition expected (us : list use) (k a : string) : option val :=
  if eqb (k, a) ("GLOBALARGS", "torch_dtype") then
    match last_value (Some "GLOBALARGS") "dtype" (default "GLOBALARGS" "dtype") us with Some (VStr s) => Some (VDtype s) | _ => None end
  else last_value (Some k) a (default k a) us.
Definition expected_main (us : list use) (n : string) : option val := last_value None n (option_map m_default (the_main n)) us.

Definition dtype_supported (us : list use) : Prop :=
  let d := last_value (Some "GLOBALARGS") "dtype" (default "GLOBALARGS" "dtype") us in
  d = Some (VStr "float64") \/ d = Some (VStr "complex128").

Definition valid (u : use) : Prop := meaning u <> None /\ text_ok u.

(** the names of all options *)
Definition flags : list string :=
  map (fun m => ("--" ++ m_name m)%string) program ++
  flat_map (fun kc => map (fun av => match snd av with
                                     | VBool true => ("--" ++ fst kc ++ "_no_" ++ fst av)%string
                                     | _ => ("--" ++ fst kc ++ "_" ++ fst av)%string
                                     end) (snd kc)) (default_config q).
Definition unregistered (t : string) : Prop :=
  prefixb "--" t = true /\ contains " " t = false /\ neglike t = false /\
  ~ In t flags /\ forall f s, t = (f ++ "=" ++ s)%string -> ~ In f flags.

(** what a user of the documentation expects of [--CTMARGS_ctm_move_sequence]: a sequence of directions *)
Definition directions (v : option val) : Prop := exists ds, v = Some (VList (map LDir ds)).
End Spec.
