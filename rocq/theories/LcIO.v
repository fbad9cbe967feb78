(** Model of ipeps/ipeps_lc.py: single-site states that are linear combinations of elementary
    tensors (IPEPS_LC_1SITE_PG, lines 38-43, 109-111, 191-205) and their files
    (write_ipeps_lc_1site_pg, lines 423-506; from_json_str and read_ipeps_lc_1site_pg, lines
    258-421), and of ipeps/ipeps_lc_bp.py: the two-site states whose second tensor is the first one
    dressed by a bond tensor (lines 34-41, 102-136) and their files (lines 174-392).  JSON encoding and decoding of the object itself is the identity.  Devices and
    [requires_grad] are left out; a coefficient vector is a tensor with one dimension. *)
From Verif Require Import Base Text Tensor TensorIO StateIO Lattice.
Open Scope nat_scope.
Open Scope string_scope.
Open Scope res_scope.
Open Scope list_scope.

(** description of an elementary tensor: the dictionary under "meta" and the other entries *)
Record lmeta : Type := mkM { m_meta : dict string string; m_extra : dict string string }.

(** JSON object of an elementary tensor, of a coefficient vector, of a state *)
Record jelem : Type := mkJE {
  je_dtype : option string;
  je_meta : option (dict string string);
  je_phys : option nat;
  je_aux : option nat;
  je_num : option nat;
  je_entries : option (list string)
}.
Record jcoef : Type := mkJC {
  jc_dtype : option string;
  jc_siteId : string;
  jc_num : option nat;
  jc_entries : option (list string)
}.
Record jlc : Type := mkJL {
  jl_lX : option Z;
  jl_lY : option Z;
  jl_elem : option (list jelem);          (** "elem_tensors" *)
  jl_su2 : option (list jelem);           (** "su2_tensors" *)
  jl_sym : option (list jelem);           (** "sym_tensors" *)
  jl_coeffs : option (list jcoef);
  jl_siteIds : list string;
  jl_map : option (list (string * coord));
  jl_aux : option (list nat)              (** "aux_ind_seq" *)
}.

Section LcIO.
Context {R : Type}.
Variables zero one : R.
Variables add mul sub : R -> R -> R.
Variable is_zero : R -> bool.
Variable fmt : R -> string.
Variable parse : string -> option R.
Variable fmtc : R * R -> string.
(** [c/torch.max(torch.abs(c))] *)
Variable normalized : ten R -> ten R.

(** complex numbers *)
Definition czero : R * R := (zero, zero).
Definition cadd2 (a b : R * R) : R * R := (add (fst a) (fst b), add (snd a) (snd b)).
Definition cmul2 (a b : R * R) : R * R :=
  (sub (mul (fst a) (fst b)) (mul (snd a) (snd b)), add (mul (fst a) (snd b)) (mul (snd a) (fst b))).

Definition to_cplx (t : ten R) : tensor (R * R) :=
  match t with TReal t => tmap (fun x => (x, zero)) t | TCplx t => t end.
(** [1.0j*t] *)
Definition times_i (t : ten R) : ten R := TCplx (tmap (cmul2 (zero, one)) (to_cplx t)).

Definition ten_shape (t : ten R) : list nat :=
  match t with TReal t => tdims t | TCplx t => tdims t end.

(** [torch.stack(ts)]: the tensors have one shape; one complex tensor makes the result complex *)
Definition stack_shape (ts : list (ten R)) : res (list nat) :=
  match ts with
  | [] => Err RuntimeError
  | t :: ts' =>
      if forallb (fun t' => eqb (ten_shape t') (ten_shape t)) ts' then Ok (ten_shape t)
      else Err RuntimeError
  end.
Definition stack_cplx (ts : list (ten R)) : bool := existsb ten_cplx ts.

(** [t[ix]] of a tensor that has the index *)
Definition at_ {K} (z : K) (t : tensor K) (ix : list nat) : K :=
  match tget t ix with Some v => v | None => z end.

(** [einsum('i,ipuldr->puldr',c,ts)] and [einsum('i,ilr->lr',c,ts)], [r] the number of indices
    of the tensors; a vector with one entry is used for all tensors, and one tensor for all
    entries (torch broadcasts indices of size one) *)
Definition pairs {K} (c : list K) (ts : list (tensor K)) : res (list (K * tensor K)) :=
  match c, ts with
  | [x], _ => Ok (map (fun t => (x, t)) ts)
  | _, [t] => Ok (map (fun x => (x, t)) c)
  | _, _ => if Nat.eqb (length c) (length ts) then Ok (combine c ts) else Err RuntimeError
  end.
Definition lincomb {K} (z : K) (pl ti : K -> K -> K) (r : nat) (c : tensor K) (ts : list (tensor K))
  (dims : list nat) : res (tensor K) :=
  _ <- (if Nat.eqb (length (tdims c)) 1 then Ok tt else Err RuntimeError) ;;
  _ <- (if Nat.eqb (length dims) r then Ok tt else Err RuntimeError) ;;
  cts <- pairs (tdata c) ts ;;
  Ok (tbuild dims (fun ix => fold_left (fun acc ct => pl acc (ti (fst ct) (at_ z (snd ct) ix))) cts z)).

Definition reals (ts : list (ten R)) : list (tensor R) :=
  map (fun t => match t with TReal t => t | TCplx t => tmap fst t end) ts.

(** lines 200-203 for one coefficient vector *)
Definition combine_site (r : nat) (cplx : bool) (ts : list (ten R)) (c : ten R) : res (ten R) :=
  dims <- stack_shape ts ;;
  let c := if cplx then TCplx (to_cplx c) else c in
  match c, stack_cplx ts with
  | TCplx c, true => t <- lincomb czero cadd2 cmul2 r c (map to_cplx ts) dims ;; Ok (TCplx t)
  | TReal c, false => t <- lincomb zero add mul r c (reals ts) dims ;; Ok (TReal t)
  | _, _ => Err RuntimeError     (** einsum of a complex with a real tensor *)
  end.

(** [m["meta"]["pg"]] *)
Definition pg (m : lmeta) : res string := dget_exn (m_meta m) "pg".

(** lines 191-205 *)
Definition set_is (l s : list string) : bool :=
  forallb (fun x => existsb (String.eqb x) s) l && forallb (fun x => existsb (String.eqb x) l) s.

Definition stacked (elem : list (lmeta * ten R)) : res (list (ten R)) :=
  irreps <- mapM (fun mt => pg (fst mt)) elem ;;
  let sel p := map (fun it => snd (snd it))
                 (filter (fun it => String.eqb (fst it) p) (combine irreps elem)) in
  if set_is irreps ["A_1"%string] then Ok (map snd elem)
  else if set_is irreps ["A_1"%string; "A_2"%string] then Ok (sel "A_1"%string ++ map times_i (sel "A_2"%string))
  else Err NotImplementedError.

Definition build_onsite (elem : list (lmeta * ten R)) (coeffs : dict coord (ten R))
  : res (dict coord (ten R)) :=
  ts <- stacked elem ;;
  _ <- stack_shape ts ;;
  mapM (fun kc => s <- combine_site 5 (stack_cplx ts) ts (snd kc) ;; Ok (fst kc, s)) coeffs.

Record lcs : Type := mkLC {
  s_elem : list (lmeta * ten R);
  s_coeffs : dict coord (ten R);
  s_state : ipeps (ten R)
}.

(** the constructor, lines 38-43 and 109-111 *)
Definition lcs_new (elem : list (lmeta * ten R)) (coeffs : dict coord (ten R)) : res lcs :=
  sites <- build_onsite elem coeffs ;;
  st <- ipeps_init ten_cplx ten_device (Some sites) None None None None ;;
  Ok (mkLC elem coeffs st).

(** ** writing, lines 450-506 *)
Definition nth_res {A} (l : list A) (k : nat) : res A :=
  match nth_error l k with Some a => Ok a | None => Err IndexError end.

(** [ei[0] ei[asq[0]] ... ei[asq[3]]] *)
Definition line_index (asq : list nat) (ei : list nat) : res (list nat) :=
  e0 <- nth_res ei 0 ;;
  es <- mapM (fun k => a <- nth_res asq k ;; nth_res ei a) [0; 1; 2; 3] ;;
  Ok (e0 :: es).

Definition line (ix : list nat) (v : string) : string := (join_sp (map print_nat ix) ++ " " ++ v)%string.

Definition nonzero (t : ten R) : list (list nat * string) :=
  match t with
  | TReal t => map (fun e => (fst e, fmt (snd e))) (filter (fun e => negb (is_zero (snd e))) (telts t))
  | TCplx t => map (fun e => (fst e, fmtc (snd e)))
      (filter (fun e => negb (is_zero (fst (snd e)) && is_zero (snd (snd e)))) (telts t))
  end.
Definition dtype_str (t : ten R) : string := if ten_cplx t then "complex128" else "float64".

Definition write_elem (asq : list nat) (mt : lmeta * ten R) : res jelem :=
  let '(m, t) := mt in
  let dims := ten_shape t in
  p <- nth_res dims 0 ;; a <- nth_res dims 1 ;;
  _ <- nth_res dims 2 ;; _ <- nth_res dims 3 ;; _ <- nth_res dims 4 ;;
  entries <- mapM (fun e => ix <- line_index asq (fst e) ;; Ok (line ix (snd e))) (nonzero t) ;;
  Ok (mkJE (Some (dtype_str t)) (Some (m_meta m)) (Some p) (Some a)
           (Some (length (nonzero t))) (Some entries)).

Definition write_coef (id : string) (c : ten R) : res jcoef :=
  n <- nth_res (ten_shape c) 0 ;;
  let vals := match c with TReal c => map fmt (tdata c) | TCplx c => map fmtc (tdata c) end in
  let entries := map (fun iv => (print_nat (fst iv) ++ " " ++ snd iv)%string) (combine (seq 0 n) vals) in
  Ok (mkJC (Some (dtype_str c)) id (Some n) (Some entries)).

Definition write_lc (aux_seq : list nat) (normalize : bool) (st : lcs) : res jlc :=
  let asq := map S aux_seq in
  es <- mapM (write_elem asq) (s_elem st) ;;
  let numbered := combine (seq 0 (length (s_coeffs st))) (s_coeffs st) in
  cs <- mapM (fun nc => let '(nid, (_, c)) := nc in
                write_coef (site_id nid) (if normalize then normalized c else c)) numbered ;;
  Ok (mkJL (Some (i_lX (s_state st))) (Some (i_lY (s_state st))) (Some es) None None (Some cs)
        (map (fun nc => site_id (fst nc)) numbered)
        (Some (map (fun nc => (site_id (fst nc), fst (snd nc))) numbered)) None).

(** ** reading, lines 327-421; [asq] is computed and never used *)
Definition loc_dtype (d : option string) : res bool :=
  match d with
  | None => Ok false
  | Some s => if eqb s "complex128"%string then Ok true
              else if eqb s "float64"%string then Ok false else Err RuntimeError
  end.

Definition read_sparse (c : bool) (dims : list nat) (entries : list string) : res (ten R) :=
  if c then t <- foldM (basis_cplx parse (length dims)) entries (tzeros czero dims) ;; Ok (TCplx t)
  else t <- foldM (basis_real parse (length dims)) entries (tzeros zero dims) ;; Ok (TReal t).

Definition read_elem (j : jelem) : res (lmeta * ten R) :=
  c <- loc_dtype (je_dtype j) ;;
  m <- key (je_meta j) ;;
  p <- key (je_phys j) ;;
  a <- key (je_aux j) ;;
  entries <- key (je_entries j) ;;
  t <- read_sparse c [p; a; a; a; a] entries ;;
  Ok (mkM m [], t).

(** lines 408-415 *)
Definition coef_real (X : tensor R) (e : string) : res (tensor R) :=
  let tokens := split_ws e in
  s1 <- tok_at tokens 1 ;; v <- float_of parse s1 ;;
  s0 <- tok_at tokens 0 ;; i <- int_of s0 ;;
  tupdate X [i] (fun _ => v).
Definition coef_cplx (X : tensor (R * R)) (e : string) : res (tensor (R * R)) :=
  let tokens := split_ws e in
  s1 <- tok_at tokens 1 ;; re <- float_of parse s1 ;;
  s2 <- tok_at tokens 2 ;; im <- float_of parse s2 ;;
  s0 <- tok_at tokens 0 ;; i <- int_of s0 ;;
  tupdate X [i] (fun _ => (re, im)).

Definition read_coef (j : jcoef) : res (ten R) :=
  c <- loc_dtype (jc_dtype j) ;;
  n <- key (jc_num j) ;;
  entries <- key (jc_entries j) ;;
  if c then t <- foldM coef_cplx entries (tzeros czero [n]) ;; Ok (TCplx t)
  else t <- foldM coef_real entries (tzeros zero [n]) ;; Ok (TReal t).

(** the last vector with the id; a missing one raises KeyError because of the key "sideId" *)
Definition find_coef (l : list jcoef) (id : string) : option jcoef :=
  fold_left (fun acc s => if eqb (jc_siteId s) id then Some s else acc) l None.

Definition read_coeffs (cs : list jcoef) (m : list (string * coord)) : res (dict coord (ten R)) :=
  foldM (fun d ts => match find_coef cs (fst ts) with
                     | None => Err KeyError
                     | Some j => x <- read_coef j ;; Ok (dset d (snd ts) x)
                     end) m [].

Definition read_lc (aux_seq : list nat) (j : jlc) : res lcs :=
  let asq := match jl_aux j with Some s => map S s | None => map S aux_seq end in
  es <- match jl_elem j with
        | Some es => Ok es
        | None => match jl_su2 j with Some es => Ok es | None => key (jl_sym j) end
        end ;;
  elem <- mapM read_elem es ;;
  m <- key (jl_map j) ;;
  coeffs <- match m with
            | [] => Ok []
            | _ => cs <- key (jl_coeffs j) ;; read_coeffs cs m
            end ;;
  lcs_new elem coeffs.

(** ** ipeps/ipeps_lc_bp.py: a site tensor and its copy dressed by a bond tensor *)

(** lines 34-41, 102-136 *)
Definition bp_v2s (c : coord) : res coord :=
  let vx := ((fst c + Z.abs (fst c) * 2) mod 2)%Z in
  let vy := Z.abs (snd c) in
  Ok (((vx + vy) mod 2)%Z, 0%Z).

(** the common size of two contracted indices *)
Definition match_dim (a b : nat) : res nat :=
  if Nat.eqb a b then Ok a else if Nat.eqb a 1 then Ok b else if Nat.eqb b 1 then Ok a
  else Err RuntimeError.
Definition ib (d i : nat) : nat := if Nat.eqb d 1 then 0 else i.

(** [einsum('um,ln,dx,ry,pmnxy->puldr',b,b,b,b,A)] *)
Definition dress {K} (z : K) (pl ti : K -> K -> K) (b A : tensor K) : res (tensor K) :=
  match tdims b, tdims A with
  | [du; dm], [p; d1; d2; d3; d4] =>
      m <- match_dim dm d1 ;; n <- match_dim dm d2 ;; x <- match_dim dm d3 ;; y <- match_dim dm d4 ;;
      let g u i := at_ z b [u; ib dm i] in
      Ok (tbuild [p; du; du; du; du] (fun ix =>
        match ix with
        | [s; u; l; d; r] =>
            fold_left (fun acc k =>
              match k with
              | [i; j; v; w] =>
                  pl acc (ti (ti (ti (ti (g u i) (g l j)) (g d v)) (g r w))
                     (at_ z A [s; ib d1 i; ib d2 j; ib d3 v; ib d4 w]))
              | _ => acc
              end) (indices [m; n; x; y]) z
        | _ => z
        end))
  | _, _ => Err RuntimeError
  end.
Definition dress_ten (b A : ten R) : res (ten R) :=
  match b, A with
  | TReal b, TReal A => t <- dress zero add mul b A ;; Ok (TReal t)
  | TCplx b, TCplx A => t <- dress czero cadd2 cmul2 b A ;; Ok (TCplx t)
  | _, _ => Err RuntimeError
  end.

Record bps : Type := mkBP {
  b_site_elem : list (lmeta * ten R);
  b_bond_elem : list (lmeta * ten R);
  b_site_c : ten R;
  b_bond_c : ten R;
  b_state : ipeps (ten R)
}.

Definition bps_new (site bond : list (lmeta * ten R)) (cA cb : ten R) : res bps :=
  ts <- stacked site ;;
  _ <- stack_shape ts ;;
  _ <- stack_shape (map snd bond) ;;
  A <- combine_site 5 (stack_cplx ts) ts cA ;;
  b <- combine_site 2 (stack_cplx ts) (map snd bond) cb ;;
  B <- dress_ten b A ;;
  st <- ipeps_init ten_cplx ten_device (Some [((0, 0)%Z, A); ((1, 0)%Z, B)]) (Some bp_v2s) None None None ;;
  Ok (mkBP site bond cA cb st).

(** [c/(c.abs().max()**(1/4))] *)
Variable normalized4 : ten R -> ten R.

Record jbp : Type := mkJB {
  jb_site : option (list jelem);
  jb_bond : option (list jelem);
  jb_site_c : option jcoef;
  jb_bond_c : option jcoef;
  jb_aux : option (list nat)
}.

(** lines 328-392 *)
Definition write_bond (mt : lmeta * ten R) : res jelem :=
  let '(m, t) := mt in
  a <- nth_res (ten_shape t) 0 ;; _ <- nth_res (ten_shape t) 1 ;;
  entries <- mapM (fun e => i <- nth_res (fst e) 0 ;; k <- nth_res (fst e) 1 ;;
                            Ok (line [i; k] (snd e))) (nonzero t) ;;
  Ok (mkJE (Some (dtype_str t)) (Some (m_meta m)) None (Some a)
           (Some (length (nonzero t))) (Some entries)).

Definition write_bp (aux_seq : list nat) (normalize : bool) (st : bps) : res jbp :=
  let asq := map S aux_seq in
  es <- mapM (write_elem asq) (b_site_elem st) ;;
  bs <- mapM write_bond (b_bond_elem st) ;;
  c <- write_coef "site" (if normalize then normalized (b_site_c st) else b_site_c st) ;;
  d <- write_coef "bond" (if normalize then normalized4 (b_bond_c st) else b_bond_c st) ;;
  Ok (mkJB (Some es) (Some bs) (Some c) (Some d) None).

(** lines 192-294 *)
Definition read_bond (j : jelem) : res (lmeta * ten R) :=
  c <- loc_dtype (je_dtype j) ;;
  m <- key (je_meta j) ;;
  a <- key (je_aux j) ;;
  entries <- key (je_entries j) ;;
  t <- read_sparse c [a; a] entries ;;
  Ok (mkM m [], t).

Definition read_bp (aux_seq : list nat) (j : jbp) : res bps :=
  let asq := match jb_aux j with Some s => map S s | None => map S aux_seq end in
  es <- key (jb_site j) ;; site <- mapM read_elem es ;;
  bs <- key (jb_bond j) ;; bond <- mapM read_bond bs ;;
  c <- key (jb_site_c j) ;; cA <- read_coef c ;;
  d <- key (jb_bond_c j) ;; cb <- read_coef d ;;
  bps_new site bond cA cb.

End LcIO.
Arguments lcs R : clear implicits.
Arguments bps R : clear implicits.
