(** Properties C07, C08, C09, C50: files holding dense tensors. *)
From Coq Require Import DecimalString.
From Verif Require Import Base BaseLemmas Text Tensor TensorLemmas TensorIO TensorIOSpec TensorIOProofs BasisIOProofs.
Open Scope nat_scope.
Open Scope list_scope.

(** scalars for the examples: integers printed in decimal *)
Definition zfmt (z : Z) : string := NilZero.string_of_int (Z.to_int z).
Definition zparse : string -> option Z := parse_int.
Definition zfmtc (z : Z * Z) : string := (zfmt (fst z) ++ "," ++ zfmt (snd z))%string.
Definition ex_real : ten Z := TReal (mkT [2; 1; 3] [5; -7; 0; 12; 1; -130]%Z).
Definition ex_cplx : ten Z := TCplx (mkT [3; 1] [(5, -7); (0, 12); (1, -130)]%Z).

(** ** C07 *)
Theorem C07_roundtrip_1d :
  forall {R} (zero : R) (fmt : R -> string) (parse : string -> option R)
         (fmtc : R * R -> string) (parsec : string -> option (R * R)),
  (forall x, parse (fmt x) = Some x) -> (forall z, parsec (fmtc z) = Some z) ->
  forall t : ten R, ten_wf t -> read_1d parse parsec (serialize_1d fmt fmtc t) = Ok t.
Proof. exact @read_1d_serialize. Qed.
Print Assumptions C07_roundtrip_1d.
Example C07_example : j_data (serialize_1d zfmt zfmtc ex_real) = Some ["5"; "-7"; "0"; "12"; "1"; "-130"]%string
  /\ read_1d zparse (fun _ => None) (serialize_1d zfmt zfmtc ex_real) = Ok ex_real.
Proof. split; vm_compute; reflexivity. Qed.

(** ** C08 *)
Theorem C08_roundtrip_legacy :
  forall {R} (zero : R) (add : R -> R -> R) (fmt : R -> string) (parse : string -> option R),
  (forall x, parse (fmt x) = Some x) -> (forall x, token (fmt x) = true) ->
  (forall x, add zero x = x) ->
  forall t : ten R, ten_wf t -> read_legacy zero add parse (serialize_legacy fmt t) = Ok t.
Proof. exact @read_legacy_serialize. Qed.
Print Assumptions C08_roundtrip_legacy.
Example C08_example :
  j_entries (serialize_legacy zfmt ex_real) =
    Some ["0 0 0 5"; "0 0 1 -7"; "0 0 2 0"; "1 0 0 12"; "1 0 1 1"; "1 0 2 -130"]%string
  /\ read_legacy 0%Z Z.add zparse (serialize_legacy zfmt ex_real) = Ok ex_real
  /\ j_entries (serialize_legacy zfmt ex_cplx) = Some ["0 0 5 -7"; "1 0 0 12"; "2 0 1 -130"]%string
  /\ read_legacy 0%Z Z.add zparse (serialize_legacy zfmt ex_cplx) = Ok ex_cplx.
Proof. repeat split; vm_compute; reflexivity. Qed.

(** the k-th line starts with the k-th index tuple in row-major order: the tuples are
    exactly the in-range ones, strictly increasing lexicographically *)
Theorem C08_lines_row_major :
  forall {R} (fmt : R -> string), (forall x, token (fmt x) = true) ->
  forall t : tensor R, twf t ->
  exists ixs, j_entries (serialize_legacy fmt (TReal t)) =
      Some (map (fun e => line_real fmt (fst e) (snd e)) (combine ixs (tdata t))) /\
    (forall ix v, split_ws (line_real fmt ix v) = map print_nat ix ++ [fmt v]) /\
    length ixs = length (tdata t) /\
    StronglySorted lex_lt ixs /\ (forall ix, In ix ixs <-> addresses (tdims t) ix).
Proof. exact @lines_row_major. Qed.
Print Assumptions C08_lines_row_major.

(** ** C09 *)
(** the complete meaning of a legacy file, real case: repeated entries are added, missing
    ones are zero *)
Theorem C09_meaning_real :
  forall {R} (zero : R) (add : R -> R -> R) (parse : string -> option R)
         (j : jtensor) (dims : list nat) (entries : list string) (es : list (list nat * R)),
  (j_dtype j = None \/ exists s, j_dtype j = Some s /\ lower s = "float64"%string) ->
  (j_dims j = Some dims \/
   (j_dims j = None /\ exists p a, j_phys j = Some p /\ j_aux j = Some a /\ dims = [p; a; a; a; a])) ->
  j_entries j = Some entries ->
  Forall2 (lists_real parse dims) entries es ->
  exists t, read_legacy zero add parse j = Ok (TReal t) /\ twf t /\ tdims t = dims /\
  forall ix, addresses dims ix -> tget t ix = Some (fold_left add (values_at es ix) zero).
Proof. exact @read_legacy_real. Qed.
Print Assumptions C09_meaning_real.

(** complex case: the last entry for an index wins *)
Theorem C09_meaning_complex :
  forall {R} (zero : R) (add : R -> R -> R) (parse : string -> option R)
         (j : jtensor) (dims : list nat) (entries : list string) (es : list (list nat * (R * R))),
  (exists s, j_dtype j = Some s /\ lower s = "complex128"%string) ->
  (j_dims j = Some dims \/
   (j_dims j = None /\ exists p a, j_phys j = Some p /\ j_aux j = Some a /\ dims = [p; a; a; a; a])) ->
  j_entries j = Some entries ->
  Forall2 (lists_cplx parse dims) entries es ->
  exists t, read_legacy zero add parse j = Ok (TCplx t) /\ twf t /\ tdims t = dims /\
  forall ix, addresses dims ix -> tget t ix = Some (last (values_at es ix) (zero, zero)).
Proof. exact @read_legacy_cplx. Qed.
Print Assumptions C09_meaning_complex.

Definition set_entries (j : jtensor) (es : list string) : jtensor :=
  mkJ (j_format j) (j_dtype j) (j_dims j) (j_phys j) (j_aux j) (j_data j) (j_num j) (Some es).

Theorem C09_order_irrelevant :
  forall {R} (zero : R) (add : R -> R -> R) (parse : string -> option R)
         (j : jtensor) (dims : list nat) (entries entries' : list string),
  (j_dims j = Some dims \/
   (j_dims j = None /\ exists p a, j_phys j = Some p /\ j_aux j = Some a /\ dims = [p; a; a; a; a])) ->
  ((j_dtype j = None \/ exists s, j_dtype j = Some s /\ lower s = "float64"%string) /\
   (exists es, Forall2 (lists_real parse dims) entries es /\ NoDup (map fst es))
   \/ (exists s, j_dtype j = Some s /\ lower s = "complex128"%string) /\
   (exists es, Forall2 (lists_cplx parse dims) entries es /\ NoDup (map fst es))) ->
  Permutation entries entries' ->
  exists t, ten_wf t /\ ten_dims t = dims /\
    read_legacy zero add parse (set_entries j entries) = Ok t /\
    read_legacy zero add parse (set_entries j entries') = Ok t.
Proof. exact @order_irrelevant. Qed.
Print Assumptions C09_order_irrelevant.
Example C09_example :
  read_legacy 0%Z Z.add zparse (mkJ None None (Some [2; 2]) None None None None
     (Some [" 1  0 3"; "0 1 4 9"; "1 0 5"; "-1 -1 6"]%string))
  = Ok (TReal (mkT [2; 2] [0; 4; 8; 6]%Z)) /\
  read_legacy 0%Z Z.add zparse (mkJ None (Some "COMPLEX128"%string) (Some [2; 2]) None None None None
     (Some [" 1  0 3 1"; "0 1 4 9"; "1 0 5 2"]%string))
  = Ok (TCplx (mkT [2; 2] [(0, 0); (4, 9); (5, 2); (0, 0)]%Z)).
Proof. split; vm_compute; reflexivity. Qed.

(** ** C50 *)
Theorem C50_basis_roundtrip :
  forall {R} (zero : R) (fmt : R -> string) (parse : string -> option R) (is_zero : R -> bool),
  (forall x, parse (fmt x) = Some x) -> (forall x, token (fmt x) = true) ->
  (forall x, is_zero x = true <-> x = zero) ->
  forall t : ten R, ten_wf t -> ten_dims t <> [] ->
  read_basis zero parse (serialize_basis fmt is_zero t) = Ok t.
Proof. exact @read_basis_serialize. Qed.
Print Assumptions C50_basis_roundtrip.

(** rank 0: the property fails for every non-zero scalar *)
Theorem C50_basis_scalar_refuted :
  forall {R} (zero : R) (fmt : R -> string) (parse : string -> option R) (is_zero : R -> bool) (x : R),
  is_zero x = false -> parse ""%string = None ->
  read_basis zero parse (serialize_basis fmt is_zero (TReal (mkT [] [x]))) = Err ValueError.
Proof. exact @read_basis_scalar. Qed.
Print Assumptions C50_basis_scalar_refuted.
Example C50_example :
  j_entries (serialize_basis zfmt (Z.eqb 0) ex_real) =
    Some ["0 0 0 5"; "0 0 1 -7"; "1 0 0 12"; "1 0 1 1"; "1 0 2 -130"]%string
  /\ read_basis 0%Z zparse (serialize_basis zfmt (Z.eqb 0) ex_real) = Ok ex_real
  /\ read_basis 0%Z zparse (serialize_basis zfmt (Z.eqb 0) (TReal (mkT [] [7%Z]))) = Err ValueError.
Proof. repeat split; vm_compute; reflexivity. Qed.
