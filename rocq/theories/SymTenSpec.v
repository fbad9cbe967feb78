(** The format of the tables of symmetric tensors (su2sym/D*.txt, u1sym/D*.txt) and what a table
    describes.  Stated through rendering: nothing here refers to the parser. *)
From Coq Require Import Ascii.
From Verif Require Import Base Text Tensor TensorLemmas SymTen.
Open Scope char_scope.
Open Scope list_scope.

Definition lacks (cs s : text) : Prop := forall c, In c s -> ~ In c cs.
Definition all_ws (s : text) : Prop := forall c, In c s -> is_ws c = true.
(** neither begins nor ends with white space *)
Definition trimmed (s : text) : Prop :=
  (forall c u, s = c :: u -> is_ws c = false) /\ (forall c u, s = u ++ [c] -> is_ws c = false).
Fixpoint join (sep : text) (l : list text) : text :=
  match l with [] => [] | [x] => x | x :: l' => x ++ sep ++ join sep l' end.
Inductive balanced : text -> Prop :=
| bal_nil : balanced []
| bal_char c s : c <> "(" -> c <> ")" -> balanced s -> balanced (c :: s)
| bal_par s t : balanced s -> balanced t -> balanced ("(" :: s ++ ")" :: t).

(** one non-zero element: ((i, j, k), value) followed by some separator *)
Record index := { x_pre : text; x_val : nat; x_post : text }.
Record element := { l_ix : list index; l_pre : text; l_val : text; l_sep : text }.
Definition index_text (x : index) : text := x_pre x ++ txt (print_nat (x_val x)) ++ x_post x.
Definition element_text (e : element) : text :=
  txt "((" ++ join (txt ",") (map index_text (l_ix e)) ++ txt ")," ++ l_pre e ++ l_val e ++ txt ")" ++ l_sep e.
(** one item of the description: 'key': value *)
Record field := { f_key : text; f_pre : text; f_val : text; f_post : text }.
Definition field_text (f : field) : text := f_key f ++ txt "':" ++ f_pre f ++ f_val f ++ f_post f.
(** one tensor: ({'key': value, 'key': value}, [element, element]) *)
Record entry := { n_fields : list field; n_elems : list element; n_a : text; n_b : text; n_first : text; n_c : text; n_sep : text }.
Definition entry_text (n : entry) : text :=
  txt "(" ++ n_a n ++ txt "{'" ++ join (txt ", '") (map field_text (n_fields n)) ++ txt "}" ++ n_b n ++
  txt "[" ++ n_first n ++ concat (map element_text (n_elems n)) ++ txt "]" ++ n_c n ++ txt ")" ++ n_sep n.
Definition table_text (pre : text) (l : list entry) : text := pre ++ concat (map entry_text l).

Definition index_wf (x : index) : Prop := all_ws (x_pre x) /\ all_ws (x_post x).
Definition element_wf (e : element) : Prop :=
  l_ix e <> [] /\ Forall index_wf (l_ix e) /\
  (forall c, In c (l_pre e) -> c = " " \/ c = "009") /\
  (forall c u, l_val e = c :: u -> c <> " " /\ c <> "009") /\
  balanced (l_val e) /\ lacks (txt "{]") (l_val e) /\ lacks (txt "(){]") (l_sep e).
Definition field_wf (f : field) : Prop :=
  lacks (txt ":") (f_key f) /\ all_ws (f_pre f) /\ all_ws (f_post f) /\ trimmed (f_val f) /\
  lacks (txt "{}") (field_text f) /\ (forall u v, field_text f <> u ++ txt ", '" ++ v).
Definition entry_wf (n : entry) : Prop :=
  n_fields n <> [] /\ Forall field_wf (n_fields n) /\ Forall element_wf (n_elems n) /\
  lacks (txt "{[)") (n_a n) /\ lacks (txt "{[)") (n_b n) /\ lacks (txt "(){]") (n_first n) /\
  lacks (txt "{[)") (n_c n) /\ lacks (txt "(") (n_sep n).
Definition table_wf (pre : text) (l : list entry) : Prop := lacks (txt "(") pre /\ Forall entry_wf l.
(** [data] is the table, with line breaks anywhere *)
Definition is_table (data pre : text) (l : list entry) : Prop :=
  table_wf pre l /\ filter (fun c => negb (Ascii.eqb c "010")) data = table_text pre l.

(** ** what an entry describes *)
(** the value of a key: that of its last occurrence *)
Fixpoint lookup (k : text) (fs : list field) : option text :=
  match fs with
  | [] => None
  | f :: fs' => match lookup k fs' with Some v => Some v | None => if list_eq_dec ascii_dec (f_key f) k then Some (f_val f) else None end
  end.
Definition describes (n : entry) (m : dict text text) : Prop := forall k, dget m k = lookup k (n_fields n).

Section Values.
Context {V : Type} (value_of : text -> option V) (zero : V).
Definition elem_of (e : element) (r : list Z * V) : Prop :=
  fst r = map (fun x => Z.of_nat (x_val x)) (l_ix e) /\ value_of (l_val e) = Some (snd r).
Definition entry_of (n : entry) (r : dict text text * list (list Z * V)) : Prop :=
  describes n (fst r) /\ Forall2 elem_of (n_elems n) (snd r).

(** the value at position [ix]: that of the last element with these indices, or zero *)
Fixpoint listed (ix : list nat) (es : list (list nat * V)) : option V :=
  match es with
  | [] => None
  | (jx, v) :: es' => match listed ix es' with Some w => Some w | None => if list_eq_dec Nat.eq_dec jx ix then Some v else None end
  end.
Definition dense (dims : list nat) (es : list (list nat * V)) (t : tensor V) : Prop :=
  twf t /\ tdims t = dims /\
  forall ix, in_range dims ix -> tget t ix = Some (match listed ix es with Some v => v | None => zero end).

(** positions: counted from zero, or (FIX) from zero in the first element and from one in all others *)
Definition place (e : element) : list nat := map x_val (l_ix e).
Inductive convention := from_zero | fix_first.
Definition positions (cv : convention) (dims : list nat) (es : list element) (l : list (list nat)) : Prop :=
  Forall (in_range dims) l /\
  match cv with
  | from_zero => map place es = l
  | fix_first => match es, l with
                 | e :: es', ix :: l' => place e = ix /\ map place es' = map (map S) l'
                 | _, _ => False
                 end
  end.
(** the table, restricted to the entries of point group [pg], describes the list of tensors [ts] *)
Definition tensor_of (cv : convention) (dims : list nat) (n : entry) (r : dict text text * tensor V) : Prop :=
  describes n (fst r) /\ exists l vs, positions cv dims (n_elems n) l /\
    Forall2 (fun e v => value_of (l_val e) = Some v) (n_elems n) vs /\ dense dims (combine l vs) (snd r).
Definition of_group (pg : text) (n : entry) : bool :=
  match lookup (txt "pg") (n_fields n) with Some g => if list_eq_dec ascii_dec g pg then true else false | None => false end.
(** every entry names its group and its values have a meaning; the positions of the selected ones exist *)
Definition readable (cv : convention) (dims : list nat) (pg : text) (n : entry) : Prop :=
  lookup (txt "pg") (n_fields n) <> None /\ Forall (fun e => value_of (l_val e) <> None) (n_elems n) /\
  (of_group pg n = true -> exists l, positions cv dims (n_elems n) l).
End Values.
