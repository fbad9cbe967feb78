(** Python string primitives used by the file formats: [str.split()],
    [str.split(' ')], [" ".join], printing and parsing of decimal integers, [str.lower].
    Strings are ASCII.  No proofs here. *)
From Coq Require Import Ascii DecimalString.
From Verif Require Import Base.
Open Scope string_scope.

(** ASCII whitespace of [str.split()]: space, \t \n \v \f \r, and 0x1c-0x1f *)
Definition is_ws (c : ascii) : bool :=
  let n := nat_of_ascii c in
  Nat.eqb n 32 || (Nat.leb 9 n && Nat.leb n 13) || (Nat.leb 28 n && Nat.leb n 31).

(** put a token in front unless it is empty *)
Definition cons_ne (w : string) (r : list string) : list string :=
  match w with EmptyString => r | _ => w :: r end.

(** (token being read, tokens after it) *)
Fixpoint split_aux (s : string) : string * list string :=
  match s with
  | EmptyString => ("", [])
  | String c s' =>
      let (w, r) := split_aux s' in
      if is_ws c then ("", cons_ne w r) else (String c w, r)
  end.
(** [s.split()] *)
Definition split_ws (s : string) : list string :=
  let (w, r) := split_aux s in cons_ne w r.

(** [s.split(' ')]: single spaces separate, empty tokens are kept *)
Fixpoint split_sp_aux (s : string) : string * list string :=
  match s with
  | EmptyString => ("", [])
  | String c s' =>
      let (w, r) := split_sp_aux s' in
      if Ascii.eqb c " "%char then ("", w :: r) else (String c w, r)
  end.
Definition split_sp (s : string) : list string :=
  let (w, r) := split_sp_aux s in w :: r.

(** [" ".join(l)] *)
Fixpoint join_sp (l : list string) : string :=
  match l with
  | [] => ""
  | [w] => w
  | w :: l' => w ++ String " "%char (join_sp l')
  end.

(** [f"{n}"] of a non-negative int *)
Definition print_nat (n : nat) : string := NilZero.string_of_uint (N.to_uint (N.of_nat n)).

(** [int(s)] of a token: optional minus sign and decimal digits (the forms "+3" and
    "1_000", also accepted by Python, are treated as invalid) *)
Definition parse_int (s : string) : option Z :=
  option_map Z.of_int (NilZero.int_of_string s).

Definition lower_ascii (c : ascii) : ascii :=
  let n := nat_of_ascii c in
  if Nat.leb 65 n && Nat.leb n 90 then ascii_of_nat (n + 32) else c.
(** [s.lower()] *)
Fixpoint lower (s : string) : string :=
  match s with EmptyString => "" | String c s' => String (lower_ascii c) (lower s') end.

(** [s[s.find(".")+1:]] if [s.find(".")>0], else [s] (tensor_io.py:198-200) *)
Fixpoint after_dot (s : string) : option string :=
  match s with
  | EmptyString => None
  | String c s' => if Ascii.eqb c "."%char then Some s' else after_dot s'
  end.
Definition strip_module (s : string) : string :=
  match s with
  | EmptyString => s
  | String c s' =>
      if Ascii.eqb c "."%char then s
      else match after_dot s' with Some r => r | None => s end
  end.

(** Python [sub in s] *)
Fixpoint prefixb (p s : string) : bool :=
  match p, s with
  | EmptyString, _ => true
  | String a p', String b s' => Ascii.eqb a b && prefixb p' s'
  | String _ _, EmptyString => false
  end.
Fixpoint contains (sub s : string) : bool :=
  prefixb sub s || match s with EmptyString => false | String _ s' => contains sub s' end.

(** a token produced by printing a number: non-empty, no whitespace *)
Fixpoint no_ws (s : string) : bool :=
  match s with EmptyString => true | String c s' => negb (is_ws c) && no_ws s' end.
Definition token (s : string) : bool :=
  match s with EmptyString => false | _ => no_ws s end.
