(** Model of writing and reading iPEPS files: [_write_ipeps_json], [write_ipeps],
    [read_ipeps] of ipeps/ipeps.py.  JSON encoding/decoding of the object itself
    ([json.dump]/[json.load]) is the identity in the model. *)
From Verif Require Import Base Text Tensor TensorIO Lattice.
Open Scope nat_scope.
Open Scope string_scope.
Open Scope res_scope.

(** the JSON object of a state: keys read or written by the code *)
Record jstate : Type := mkS {
  js_lX : option Z;
  js_lY : option Z;
  js_sizeM : option Z;                        (* legacy key *)
  js_sizeN : option Z;                        (* legacy key *)
  js_sites : list (string * jtensor);         (* "siteId", tensor *)
  js_siteIds : list string;
  js_map : list (string * coord);             (* "siteId", ("x","y") *)
  js_pattern : option (list (list string));
  js_aux : option (list nat)                  (* "aux_ind_seq" *)
}.

Section StateIO.
Context {R : Type}.
Variable zero : R.
Variable add : R -> R -> R.
Variable fmt : R -> string.
Variable parse : string -> option R.
Variable fmtc : R * R -> string.
Variable parsec : string -> option (R * R).
(** [site/site.abs().max()] *)
Variable normalized : ten R -> ten R.

(** [global_args.tensor_io_format] *)
Inductive io_format : Type := Flegacy | F1D | Fother.

(** ipeps/ipeps.py:482-488; for an unknown format [json_tensor] is never assigned *)
Definition serialize (f : io_format) (t : ten R) : res jtensor :=
  match f with
  | Flegacy => Ok (serialize_legacy fmt t)
  | F1D => Ok (serialize_1d fmt fmtc t)
  | Fother => Err UnboundLocalError
  end.

Definition site_id (nid : nat) : string := "A" ++ print_nat nid.

Definition dict_sites (st : ipeps (ten R)) : res (dict coord (ten R)) :=
  match i_sites st with Some s => Ok s | None => Err AttributeError end.

(** [_write_ipeps_json], ipeps/ipeps.py:467-499.  The arguments [aux_seq] and [tol] are
    never used by the code: [asq] is computed and dropped. *)
Definition write_ipeps (f : io_format) (aux_seq : list nat) (normalize : bool)
  (st : ipeps (ten R)) : res jstate :=
  let asq := map S aux_seq in
  sites <- dict_sites st ;;
  let numbered := combine (seq 0 (length sites)) sites in
  js <- mapM (fun nc => let '(nid, (c, site)) := nc in
                let site' := if normalize then normalized site else site in
                jt <- serialize f site' ;; Ok (site_id nid, jt)) numbered ;;
  let site_map := map (fun nc => let '(nid, (c, site)) := nc in (site_id nid, c)) numbered in
  let ucoord_to_id := dict_of (map (fun ic => (snd ic, fst ic)) site_map) in
  pat <- mapM (fun y => mapM (fun x => k <- i_v2s st (x, y) ;; dget_exn ucoord_to_id k)
                             (zrange (i_lX st)))
              (zrange (i_lY st)) ;;
  Ok (mkS (Some (i_lX st)) (Some (i_lY st)) None None js (map fst js) site_map (Some pat) None).

(** the last entry of "sites" whose "siteId" matches, ipeps/ipeps.py:389-392 *)
Definition find_site (l : list (string * jtensor)) (id : string) : option jtensor :=
  fold_left (fun acc s => if eqb (fst s) id then Some (snd s) else acc) l None.

(** ipeps/ipeps.py:397-402: an unknown "format" leaves [X] as it was (unbound in the
    first pass of the loop) *)
Definition read_tensor (jt : jtensor) (X : option (ten R)) : res (ten R) :=
  match j_format jt with
  | Some f =>
      if eqb f "1D" then read_1d parse parsec jt
      else match X with Some x => Ok x | None => Err UnboundLocalError end
  | None => read_legacy zero add parse jt
  end.

Definition ten_permute (t : ten R) (p : list nat) : res (ten R) :=
  match t with
  | TReal t => t' <- tpermute zero t p ;; Ok (TReal t')
  | TCplx t => t' <- tpermute (zero, zero) t p ;; Ok (TCplx t')
  end.

(** promotion of real tensors when the default dtype is complex, ipeps/ipeps.py:407-410 *)
Definition promote (complex_default : bool) (t : ten R) : ten R :=
  match t with
  | TReal t => if complex_default then TCplx (tmap (fun x => (x, zero)) t) else TReal t
  | TCplx t => TCplx t
  end.

(** loop over "map", ipeps/ipeps.py:385-413.  A missing tensor evaluates
    [ts["sideId"]] (typo of the key) and hence raises KeyError. *)
Definition read_step (complex_default : bool) (asq : list nat) (sites : list (string * jtensor))
  (s : dict coord (ten R) * option (ten R)) (ts : string * coord)
  : res (dict coord (ten R) * option (ten R)) :=
  let (d, X) := s in
  match find_site sites (fst ts) with
  | None => Err KeyError
  | Some jt =>
      x <- read_tensor jt X ;;
      y <- ten_permute x (0 :: asq) ;;
      Ok (dset d (snd ts) (promote complex_default y), Some x)
  end.

Definition first_key {A} (a b : option A) : res A :=
  match a with Some x => Ok x | None => key b end.

(** dtype of a tensor: true for complex128; one device only *)
Definition ten_cplx (t : ten R) : bool := match t with TReal _ => false | TCplx _ => true end.
Definition ten_device (t : ten R) : bool := true.

(** [read_ipeps], ipeps/ipeps.py:339-441 *)
Definition read_ipeps (complex_default : bool) (v2s : option (coord -> res coord))
  (aux_seq : list nat) (js : jstate) : res (ipeps (ten R)) :=
  let asq := match js_aux js with Some s => map S s | None => map S aux_seq end in
  '(sites, _) <- foldM (read_step complex_default asq (js_sites js)) (js_map js) ([], None) ;;
  lX <- first_key (js_sizeM js) (js_lX js) ;;
  lY <- first_key (js_sizeN js) (js_lY js) ;;
  let '(v2s', pat) :=
    match v2s, js_pattern js with
    | None, Some p => (None, Some (PatRows p))
    | None, None => (Some (pbc lX lY), None)
    | Some f, _ => (Some f, None)
    end in
  ipeps_init ten_cplx ten_device (Some sites) v2s' pat (Some lX) (Some lY).

(** the default argument aux_seq=[0,1,2,3] *)
Definition aux_default : list nat := [0; 1; 2; 3].
End StateIO.
