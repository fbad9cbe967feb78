(** Specification vocabulary for the tensor file formats. *)
From Verif Require Import Base Text Tensor.
Open Scope nat_scope.
Open Scope list_scope.

(** index tuple [ix] addresses an element of a tensor of shape [dims] *)
Definition addresses (dims ix : list nat) : Prop := Forall2 (fun d i => i < d) dims ix.

(** index tuples in lexicographic (row-major) order *)
Fixpoint lex_lt (a b : list nat) : Prop :=
  match a, b with
  | x :: a', y :: b' => x < y \/ (x = y /\ lex_lt a' b')
  | _, _ => False
  end.

Section S.
Context {R : Type}.
Variable parse : string -> option R.

(** the text line [e] lists index [ix] with real value [v]; a second number (imaginary
    part) may follow *)
Definition lists_real (dims : list nat) (e : string) (iv : list nat * R) : Prop :=
  exists toks s rest, split_ws e = toks ++ s :: rest /\ length rest <= 1 /\
    Forall2 (fun w i => parse_int w = Some (Z.of_nat i)) toks (fst iv) /\
    parse s = Some (snd iv) /\ addresses dims (fst iv).

(** the text line lists index [ix] with value [re + i im] *)
Definition lists_cplx (dims : list nat) (e : string) (iv : list nat * (R * R)) : Prop :=
  exists toks s s', split_ws e = toks ++ [s; s'] /\
    Forall2 (fun w i => parse_int w = Some (Z.of_nat i)) toks (fst iv) /\
    parse s = Some (fst (snd iv)) /\ parse s' = Some (snd (snd iv)) /\ addresses dims (fst iv).
End S.

(** values listed for index [ix], in file order *)
Definition values_at {V} (es : list (list nat * V)) (ix : list nat) : list V :=
  map snd (filter (fun e => eqb (fst e) ix) es).
