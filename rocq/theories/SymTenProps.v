(** C47: tables of symmetric tensors. *)
From Coq Require Import Ascii Permutation.
From Verif Require Import Base Text Tensor TensorLemmas SymTen SymTenSpec SymTenProofs SymTenProofs2 SymTenExamples.
Open Scope char_scope.
Open Scope list_scope.

(** Parsing a text in the format of the tables, with any filling between its parts and line breaks
    anywhere, returns the described entries: the values of the keys, and the elements in order.
    Example: SymTenExamples.zero_is_table with read_zero. *)
Theorem C47_parse {V : Type} (value_of : text -> option V) data pre l : is_table data pre l ->
  Forall (fun n => Forall (fun e => value_of (l_val e) <> None) (n_elems n)) l ->
  exists r, parse_symten_text value_of data = Ok r /\ Forall2 (entry_of value_of) l r.
Proof. exact (parse_table value_of data pre l). Qed.
Print Assumptions C47_parse.

(** Filling puts the (last) listed value at its index and zero elsewhere. *)
Theorem C47_fill {V : Type} (zero : V) dims es : Forall (fun e => in_range dims (fst e)) es ->
  exists t, fill_from_sparse_coo (tzeros zero dims) (map (fun e => (map Z.of_nat (fst e), snd e)) es) = Ok t /\ dense zero dims es t.
Proof. exact (fill_dense zero dims es). Qed.
Print Assumptions C47_fill.

(** For distinct indices the order is irrelevant. *)
Theorem C47_order {V : Type} (zero : V) dims es es' t t' : NoDup (map fst es) -> Permutation es es' ->
  dense zero dims es t -> dense zero dims es' t' -> t = t'.
Proof. exact (dense_unique zero dims es es' t t'). Qed.
Print Assumptions C47_order.

(** import_sym_tensors and import_sym_tensors_generic return, in order, the tensors of the
    requested point group, for tables that count indices from zero. *)
Theorem C47_import {V : Type} (value_of : text -> option V) (zero : V) dims pg data pre l :
  is_table data pre l -> Forall (readable value_of from_zero dims pg) l ->
  exists r, import_sym_tensors_generic value_of zero dims pg data = Ok r /\
    Forall2 (tensor_of value_of zero from_zero dims) (filter (of_group pg) l) r.
Proof. exact (import_table value_of zero from_zero dims pg data pre l). Qed.
Print Assumptions C47_import.
Theorem C47_import_square {V : Type} (value_of : text -> option V) (zero : V) p D pg data pre l :
  is_table data pre l -> Forall (readable value_of from_zero [p; D; D; D; D] pg) l ->
  exists r, import_sym_tensors value_of zero p D pg data = Ok r /\
    Forall2 (tensor_of value_of zero from_zero [p; D; D; D; D]) (filter (of_group pg) l) r.
Proof. exact (import_table value_of zero from_zero [p; D; D; D; D] pg data pre l). Qed.
Print Assumptions C47_import_square.

(** import_sym_tensors_FIX does so for tables in which the first element of every entry counts
    from zero and all others count from one (this is how su2sym/D*.txt are written). *)
Theorem C47_import_fix {V : Type} (value_of : text -> option V) (zero : V) p D pg data pre l :
  is_table data pre l -> Forall (readable value_of fix_first [p; D; D; D; D] pg) l ->
  exists r, import_sym_tensors_FIX value_of zero p D pg data = Ok r /\
    Forall2 (tensor_of value_of zero fix_first [p; D; D; D; D]) (filter (of_group pg) l) r.
Proof. exact (import_table value_of zero fix_first [p; D; D; D; D] pg data pre l). Qed.
Print Assumptions C47_import_fix.

(** import_sym_bonds returns D x D matrices, for all entries or those of one group. *)
Theorem C47_import_bonds {V : Type} (value_of : text -> option V) (zero : V) (D : nat) pg data pre l : D <> 1%nat -> is_table data pre l ->
  Forall (fun n => Forall (fun e => value_of (l_val e) <> None) (n_elems n)) l ->
  (match pg with None => True | Some _ => Forall (fun n => lookup (txt "pg") (n_fields n) <> None) l end) ->
  let sel := match pg with None => fun _ => true | Some g => of_group g end in
  (forall n, In n l -> sel n = true -> exists p, positions from_zero [1; D; D]%nat (n_elems n) p) ->
  exists r, import_sym_bonds value_of zero D pg data = Ok r /\
    Forall2 (fun n x => tdims (snd x) = [D; D] /\ exists t, tensor_of value_of zero from_zero [1; D; D]%nat n (fst x, t) /\
       forall i j, tget (snd x) [i; j] = tget t [0; i; j]%nat) (filter sel l) r.
Proof. exact (import_bonds value_of zero D pg data pre l). Qed.
Print Assumptions C47_import_bonds.

(** An entry without the key 'pg' makes the import fail. *)
Theorem C47_missing_group {V : Type} (value_of : text -> option V) (zero : V) p D pg data pre l : is_table data pre l ->
  Forall (fun n => Forall (fun e => value_of (l_val e) <> None) (n_elems n)) l ->
  (exists n l', l = n :: l' /\ lookup (txt "pg") (n_fields n) = None) ->
  import_sym_tensors value_of zero p D pg data = Err KeyError.
Proof. exact (import_missing value_of zero fill_from_sparse_coo [p; D; D; D; D] pg data pre l). Qed.
Print Assumptions C47_missing_group.

(** The FIX variant on a table that counts from zero does not fail: it returns wrong tensors. *)
Theorem C47_fix_on_zero_based_refuted : exists data pre l r, is_table data pre l /\
  Forall (readable ev from_zero [2; 2; 2; 2; 2]%nat (txt "A_1")) l /\
  import_sym_tensors_FIX ev 0%Z 2 2 (txt "A_1") data = Ok r /\
  ~ Forall2 (tensor_of ev 0%Z from_zero [2; 2; 2; 2; 2]%nat) (filter (of_group (txt "A_1")) l) r.
Proof. destruct fix_wraps as [r H]. exact (ex_intro _ ex_zero (ex_intro _ (txt "[") (ex_intro _ zero_entries (ex_intro _ r (conj zero_is_table (conj zero_readable H)))))). Qed.
Print Assumptions C47_fix_on_zero_based_refuted.
(** The FIX variant changes the list it is given: the second use gives another tensor. *)
Theorem C47_fix_repeated_refuted : exists (t t2 : tensor Z) es1 es2, fill_from_sparse_coo_FIX (tzeros 0%Z [2; 2]%nat) [([0; 0]%Z, 1%Z)] = Ok (t, es1) /\
  fill_from_sparse_coo_FIX (tzeros 0%Z [2; 2]%nat) es1 = Ok (t2, es2) /\ t <> t2.
Proof. exact fix_twice. Qed.
Print Assumptions C47_fix_repeated_refuted.
