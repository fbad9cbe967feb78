(** Model of su2sym/sym_ten_parser.py:4-185 (u1sym/sym_ten_parser.py:4-161 is the same code).

    A text is a list of characters.  Python's [eval] of a value is an oracle [eval_] (None if it
    raises); leading blanks are removed as eval does.  [int(s)] strips white space and accepts
    an optional minus sign and digits.  Not modelled: reading the file, dtype and device, the
    conversion of complex values on assignment into a real tensor. *)
From Coq Require Import Ascii.
From Verif Require Import Base Text Tensor.
Open Scope char_scope.
Open Scope list_scope.
Open Scope Z_scope.
Open Scope res_scope.

Notation text := (list ascii).
#[global] Instance EqDec_ascii : EqDec ascii := Ascii.ascii_dec.
Definition txt (s : string) : text := list_ascii_of_string s.
Definition slen (s : text) : Z := Z.of_nat (length s).

(** ** string primitives *)
Fixpoint prefix (p s : text) : bool :=
  match p, s with [], _ => true | a :: p', b :: s' => Ascii.eqb a b && prefix p' s' | _ :: _, [] => false end.
(** [s.find(p)] *)
Fixpoint find_nat (p s : text) : option nat :=
  if prefix p s then Some O
  else match s with [] => None | _ :: s' => match find_nat p s' with Some n => Some (S n) | None => None end end.
Definition find (p s : text) : Z := match find_nat p s with Some n => Z.of_nat n | None => -1 end.
(** [s[a:b]] *)
Definition clamp (n i : Z) : nat := Z.to_nat (Z.max 0 (Z.min n (if i <? 0 then i + n else i))).
Definition slice (s : text) (a b : Z) : text :=
  let a' := clamp (slen s) a in let b' := clamp (slen s) b in firstn (b' - a') (skipn a' s).
(** [s.split(sep)] for a non-empty [sep]; the counter skips the rest of a separator *)
Fixpoint split_go (sep s : text) (skip : nat) (acc : text) : list text :=
  match skip, s with
  | S k, _ :: s' => split_go sep s' k acc
  | _, [] => [rev acc]
  | O, c :: s' => if prefix sep s then rev acc :: split_go sep s' (length sep - 1) [] else split_go sep s' 0 (c :: acc)
  end.
Definition split (sep s : text) : list text := split_go sep s 0 [].
(** [s.strip()] *)
Fixpoint lstrip (s : text) : text := match s with c :: s' => if is_ws c then lstrip s' else s | [] => [] end.
Definition strip (s : text) : text := rev (lstrip (rev (lstrip s))).
Fixpoint lstrip_blank (s : text) : text :=
  match s with c :: s' => if Ascii.eqb c " " || Ascii.eqb c "009" then lstrip_blank s' else s | [] => [] end.
Definition int_ (s : text) : res Z :=
  match parse_int (string_of_list_ascii (strip s)) with Some z => Ok z | None => Err ValueError end.

(** ** parse_meta, :4-10 *)
Definition parse_meta (s : text) : dict text text :=
  fold_left (fun m f => let i := find (txt ":") f in dset m (slice f 0 (i - 1)) (strip (slice f (i + 1) (slen f))))
    (split (txt ", '") (slice s 1 (slen s))) [].

Section Parser.
Context {V : Type} (eval_ : text -> option V).

(** ** parse_elem, :12-17 *)
Definition elem : Type := list Z * V.
Definition parse_elem (s : text) : res elem :=
  let e := find (txt "),") s in
  inds <- mapM int_ (split (txt ",") (slice s 1 e)) ;;
  match eval_ (lstrip_blank (slice s (e + 2) (-1))) with Some v => Ok (inds, v) | None => Err PyException end.

(** ** parse_elems, :19-39: elements so far, level, buffer *)
Definition scan_elem (st : list text * Z * text) (c : ascii) : list text * Z * text :=
  let '(raw, level, bf) := st in
  let bf := bf ++ [c] in
  if Ascii.eqb c "(" then
    let bf := if level =? 0 then [] else bf in (raw, level + 1, bf)
  else if Ascii.eqb c ")" then
    let level := level - 1 in
    if level =? 0 then (raw ++ [bf], level, []) else (raw, level, bf)
  else (raw, level, bf).
Definition raw_elems (s : text) : list text := fst (fst (fold_left scan_elem s ([], 0, []))).
Definition parse_elems (s : text) : res (list elem) := mapM parse_elem (raw_elems s).

(** ** parse_classification, :41-104 *)
Record cstate := { c_meta_t : list text; c_raw_t : list text; c_level : Z; c_meta : Z; c_elem : Z; c_bf : text }.
Definition scan_class (st : cstate) (c : ascii) : cstate :=
  let 'Build_cstate meta_t raw_t level meta elem bf := st in
  if (level =? 0) && Ascii.eqb c "(" then Build_cstate meta_t raw_t 1 meta elem bf
  else if (level =? 1) && Ascii.eqb c "{" then Build_cstate meta_t raw_t level 1 elem []
  else if level * meta =? 1 then
    if Ascii.eqb c "}" then Build_cstate (meta_t ++ [bf]) raw_t level 0 elem bf
    else Build_cstate meta_t raw_t level meta elem (bf ++ [c])
  else if (level * (1 - meta) * (1 - elem) =? 1) && Ascii.eqb c "[" then Build_cstate meta_t raw_t level meta 1 []
  else if level * (1 - meta) * elem =? 1 then
    if Ascii.eqb c "]" then Build_cstate meta_t (raw_t ++ [bf]) level meta 0 bf
    else Build_cstate meta_t raw_t level meta elem (bf ++ [c])
  else if (level =? 1) && Ascii.eqb c ")" then Build_cstate meta_t raw_t 0 meta elem bf
  else st.
Definition symten : Type := dict text text * list elem.
Definition parse_classification (t : text) : res (list symten) :=
  let st := fold_left scan_class t {| c_meta_t := []; c_raw_t := []; c_level := 0; c_meta := 0; c_elem := 0; c_bf := [] |} in
  elems <- mapM parse_elems (c_raw_t st) ;;
  Ok (combine (map parse_meta (c_meta_t st)) elems).
(** :106-109 *)
Definition parse_symten_text (data : text) : res (list symten) :=
  parse_classification (filter (fun c => negb (Ascii.eqb c "010")) data).

(** ** filling, :111-123, :142-149 *)
Definition fill_from_sparse_coo (t : tensor V) (elems : list elem) : res (tensor V) :=
  foldM (fun t e => tupdate t (fst e) (fun _ => snd e)) elems t.
(** the list of the caller is changed: it is returned *)
Definition fill_from_sparse_coo_FIX (t : tensor V) (elems : list elem) : res (tensor V * list elem) :=
  match elems with
  | [] => Err IndexError
  | (ix, v) :: es =>
      let elems := (map (fun i => i + 1) ix, v) :: es in
      t <- foldM (fun t e => tupdate t (map (fun i => i - 1) (fst e)) (fun _ => snd e)) elems t ;;
      Ok (t, elems)
  end.

(** ** imports, :125-140, :151-185 *)
Variable zero : V.
Definition import_with (fill : tensor V -> list elem -> res (tensor V)) (dims : list nat) (sel : dict text text -> res bool) (data : text) :
  res (list (dict text text * tensor V)) :=
  tensors_coo <- parse_symten_text data ;;
  foldM (fun tensors (tcoo : symten) =>
    b <- sel (fst tcoo) ;;
    if b : bool then t <- fill (tzeros zero dims) (snd tcoo) ;; Ok (tensors ++ [(fst tcoo, t)]) else Ok tensors) tensors_coo [].
Definition has_pg (pg : text) (m : dict text text) : res bool := g <- dget_exn m (txt "pg") ;; Ok (eqb pg g).
Definition import_sym_tensors_generic (dims : list nat) (pg data : text) := import_with fill_from_sparse_coo dims (has_pg pg) data.
Definition import_sym_tensors (p D : nat) (pg data : text) := import_with fill_from_sparse_coo [p; D; D; D; D] (has_pg pg) data.
Definition import_sym_tensors_FIX (p D : nat) (pg data : text) :=
  import_with (fun t es => r <- fill_from_sparse_coo_FIX t es ;; Ok (fst r)) [p; D; D; D; D] (has_pg pg) data.
(** import_sym_bonds squeezes the tensor, :183; [pg] is optional *)
Definition squeeze (t : tensor V) : tensor V := mkT (filter (fun d => negb (Nat.eqb d 1)) (tdims t)) (tdata t).
Definition import_sym_bonds (D : nat) (pg : option text) (data : text) :=
  import_with (fun t es => t <- fill_from_sparse_coo t es ;; Ok (squeeze t)) [1; D; D]%nat (match pg with None => fun _ => Ok true | Some g => has_pg g end) data.
End Parser.
