(** Model of ipeps/tensor_io.py: JSON representations of dense tensors. *)
From Verif Require Import Base Text Tensor.
Open Scope nat_scope.
Open Scope string_scope.
Open Scope res_scope.

(** a JSON object describing a tensor: the keys read or written by the code, [None]
    when the key is absent.  Simplification: "dims" are non-negative ints. *)
Record jtensor : Type := mkJ {
  j_format : option string;
  j_dtype : option string;
  j_dims : option (list nat);
  j_phys : option nat;              (* "physDim" *)
  j_aux : option nat;               (* "auxDim" *)
  j_data : option (list string);
  j_num : option nat;               (* "numEntries" *)
  j_entries : option (list string)
}.

Definition key {A} (o : option A) : res A :=
  match o with Some a => Ok a | None => Err KeyError end.

Section IO.
(** real scalars (float64), their printing [f"{x}"] and parsing [float(s)]; complex
    scalars are pairs, printed by [f"{z}"] and parsed by numpy's string conversion *)
Context {R : Type}.
Variable zero : R.
Variable add : R -> R -> R.
Variable fmt : R -> string.
Variable parse : string -> option R.
Variable fmtc : R * R -> string.
Variable parsec : string -> option (R * R).

(** a torch/numpy array of dtype float64 or complex128 *)
Inductive ten : Type := TReal (t : tensor R) | TCplx (t : tensor (R * R)).

(** [f"{t.dtype}"] of a torch tensor *)
Definition dtype_name (t : ten) : string :=
  match t with TReal _ => "torch.float64" | TCplx _ => "torch.complex128" end.

Definition float_of (s : string) : res R :=
  match parse s with Some x => Ok x | None => Err ValueError end.
Definition complex_of (s : string) : res (R * R) :=
  match parsec s with Some x => Ok x | None => Err ValueError end.
Definition int_of (s : string) : res Z :=
  match parse_int s with Some x => Ok x | None => Err ValueError end.

(** [l[-k]] for k >= 1 *)
Definition tok (l : list string) (k : nat) : res string :=
  match nth_error (rev l) (k - 1) with Some s => Ok s | None => Err IndexError end.
(** [l[:-k]] for k >= 1 *)
Definition drop_last (k : nat) (l : list string) : list string := firstn (length l - k) l.

(** ** writing *)

(** [serialize_bare_tensor_np], tensor_io.py:184-208 *)
Definition serialize_1d (t : ten) : jtensor :=
  let dt := strip_module (dtype_name t) in
  let '(dims, data) :=
    match t with
    | TReal t => (tdims t, map fmt (tdata t))
    | TCplx t => (tdims t, map fmtc (tdata t))
    end in
  mkJ (Some "1D") (Some dt) (Some dims) None None (Some data) None None.

(** one line of [serialize_bare_tensor_legacy], tensor_io.py:232-241 *)
Definition line_real (ix : list nat) (v : R) : string :=
  join_sp (map print_nat ix) ++ " " ++ fmt v.
Definition line_cplx (ix : list nat) (v : R * R) : string :=
  join_sp (map print_nat ix) ++ " " ++ fmt (fst v) ++ " " ++ fmt (snd v).

(** [serialize_bare_tensor_legacy], tensor_io.py:210-245; [t[ei]] for every [ei] of
    [product( *(range(i) for i in t.shape))] *)
Definition serialize_legacy (t : ten) : jtensor :=
  let dt := strip_module (dtype_name t) in
  let '(dims, entries) :=
    match t with
    | TReal t => (tdims t, map (fun e => line_real (fst e) (snd e)) (telts t))
    | TCplx t => (tdims t, map (fun e => line_cplx (fst e) (snd e)) (telts t))
    end in
  mkJ None (Some dt) (Some dims) None None None (Some (length entries)) (Some entries).

(** ** reading *)

(** [assert dtype_str in ["float64","complex128"]], tensor_io.py:48, 64 *)
Definition check_dtype (s : string) : res unit :=
  py_assert (eqb s "float64" || eqb s "complex128").

(** [read_bare_json_tensor_np], tensor_io.py:46-58 *)
Definition read_1d (j : jtensor) : res ten :=
  d <- key (j_dtype j) ;;
  let dt := lower d in
  _ <- check_dtype dt ;;
  dims <- key (j_dims j) ;;
  raw <- key (j_data j) ;;
  if contains "complex" dt then
    xs <- mapM complex_of raw ;; t <- treshape xs dims ;; Ok (TCplx t)
  else
    xs <- mapM float_of raw ;; t <- treshape xs dims ;; Ok (TReal t).

(** loop body for complex tensors, tensor_io.py:84-86 *)
Definition entry_cplx (X : tensor (R * R)) (e : string) : res (tensor (R * R)) :=
  let l := split_ws e in
  s2 <- tok l 2 ;; re <- float_of s2 ;;
  s1 <- tok l 1 ;; im <- float_of s1 ;;
  ix <- mapM int_of (drop_last 2 l) ;;
  tupdate X ix (fun _ => (re, im)).

(** loop body for real tensors, tensor_io.py:88-91: [+=] *)
Definition entry_real (r : nat) (X : tensor R) (e : string) : res (tensor R) :=
  let l := split_ws e in
  let k := if Nat.eqb (length l) (r + 1) then 1 else 2 in
  ix <- mapM int_of (drop_last k l) ;;
  _ <- norm_indices (tdims X) ix ;;
  s <- tok l k ;; v <- float_of s ;;
  tupdate X ix (fun x => add x v).

(** [read_bare_json_tensor_np_legacy], tensor_io.py:60-93 *)
Definition read_legacy (j : jtensor) : res ten :=
  let dt := match j_dtype j with Some d => lower d | None => "float64" end in
  _ <- check_dtype dt ;;
  dims <- match j_dims j with
          | Some dims => Ok dims
          | None => p <- key (j_phys j) ;; a <- key (j_aux j) ;; Ok [p; a; a; a; a]
          end ;;
  entries <- key (j_entries j) ;;
  if eqb dt "complex128" then
    t <- foldM entry_cplx entries (tzeros (zero, zero) dims) ;; Ok (TCplx t)
  else
    t <- foldM (entry_real (length dims)) entries (tzeros zero dims) ;; Ok (TReal t).

(** ** sparse basis tensors (tensor_io.py:278-327) *)
Variable is_zero : R -> bool.     (* x == 0.0 *)

(** [serialize_basis_t], tensor_io.py:278-301: [t.nonzero()] lists the indices of
    non-zero elements in row-major order.  "meta" is passed through, not modelled. *)
Definition serialize_basis (t : ten) : jtensor :=
  let '(dt, dims, entries) :=
    match t with
    | TReal t => ("float64", tdims t,
        map (fun e => line_real (fst e) (snd e))
            (filter (fun e => negb (is_zero (snd e))) (telts t)))
    | TCplx t => ("complex128", tdims t,
        map (fun e => line_cplx (fst e) (snd e))
            (filter (fun e => negb (is_zero (fst (snd e)) && is_zero (snd (snd e)))) (telts t)))
    end in
  mkJ None (Some dt) (Some dims) None None None (Some (length entries)) (Some entries).

(** [tokens[k]] *)
Definition tok_at (l : list string) (k : nat) : res string :=
  match nth_error l k with Some s => Ok s | None => Err IndexError end.

(** loop bodies of [read_basis_t], tensor_io.py:313-322 *)
Definition basis_cplx (r : nat) (X : tensor (R * R)) (e : string) : res (tensor (R * R)) :=
  let tokens := split_sp e in
  ix <- mapM int_of (firstn r tokens) ;;
  s1 <- tok_at tokens r ;; re <- float_of s1 ;;
  s2 <- tok_at tokens (r + 1) ;; im <- float_of s2 ;;
  tupdate X ix (fun _ => (re, im)).
Definition basis_real (r : nat) (X : tensor R) (e : string) : res (tensor R) :=
  let tokens := split_sp e in
  ix <- mapM int_of (firstn r tokens) ;;
  s <- tok_at tokens r ;; v <- float_of s ;;
  tupdate X ix (fun _ => v).

(** [read_basis_t] with [dtype=None], tensor_io.py:303-327; an unknown dtype string
    leaves [t_dtype=None], i.e. torch's default dtype: that path is an error here *)
Definition read_basis (j : jtensor) : res ten :=
  d <- key (j_dtype j) ;;
  dims <- key (j_dims j) ;;
  entries <- key (j_entries j) ;;
  if eqb d "complex128" then
    t <- foldM (basis_cplx (length dims)) entries (tzeros (zero, zero) dims) ;; Ok (TCplx t)
  else if eqb d "float64" then
    t <- foldM (basis_real (length dims)) entries (tzeros zero dims) ;; Ok (TReal t)
  else Err NotImplementedError.
End IO.
Arguments ten R : clear implicits.
