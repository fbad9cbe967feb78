(** Model of how the state classes go into a checkpoint and come back:
    [get_parameters], [get_checkpoint] and [load_checkpoint] of
      ipeps/ipeps.py:246-284          IPEPS (also IPEPS_C4V, IPEPS_KAGOME),
      ipeps/ipeps_1s_Q.py:60-104      IPEPS_1S_Q,
      ipeps/ipeps_d2.py:39-70         IPEPS_D2SYM,
      ipeps/ipeps_lc.py:107-211, 509-525  IPEPS_LC_1SITE_PG, load_checkpoint_lc_1site_pg,
      ipeps/ipeps_lc_bp.py:35-142     IPEPS_LC_BP,
      ipeps/ipeps_trgl_pg.py:40-81, 270-309  IPEPS_TRGL_1S_TTPHYS_PG, IPEPS_TRGL_1S_TBT_PG,
      ipeps/ipess_kagome.py:31-81     IPESS_KAGOME_GENERIC,
      ipeps/ipess_kagome.py:381-473   IPESS_KAGOME_PG,
      ipeps/ipess_kagome.py:780-918   IPESS_KAGOME_PG_LC,
    with [store_checkpoint] of optim/ad_optim_lbfgs_mod.py:19-43.

    A checkpoint is a Python value: dictionaries, tuples, lists, strings, numbers and tensors.
    [torch.save] followed by [torch.load] is the identity on such values (it keeps the dtype, the
    entries and [requires_grad] of a tensor, the order of a dictionary and tensors shared within one
    file); [map_location] and devices are left out.  A tensor is a value of an abstract type [A]
    together with its [requires_grad] flag; computing with tensors (einsum, permute, stack) is given
    by functions of the values.  An exception leaves no state behind in the model. *)
From Coq Require Import String List ZArith Bool Ascii.
From Verif Require Import Base.
Import ListNotations.
Open Scope list_scope.
Open Scope res_scope.

Section StateCk.
Context {A : Type}.
Variable cplx : A -> bool.       (** [t.is_complex()] *)
Variable numel : A -> Z.         (** [t.numel()] *)

Record tens := mkt { t_val : A; t_grad : bool }.

(** keys of dictionaries: strings and coordinates *)
Inductive pykey := KStr (s : string) | KCoord (c : coord).

#[global] Instance EqDec_pykey : EqDec pykey.
Proof.
  intros [s|c] [s'|c'].
  - destruct (String.string_dec s s'); [left|right]; congruence.
  - right; congruence.
  - right; congruence.
  - destruct (eq_dec c c'); [left|right]; congruence.
Defined.

Inductive pyv :=
| PT (t : tens)
| PStr (s : string)
| PInt (z : Z)
| POther                          (** any other object: floats, optimizer state *)
| PTup (l : list pyv)
| PList (l : list pyv)
| PSet (l : list string)
| PDict (d : list (pykey * pyv)).

Definition key_val (k : pykey) : pyv :=
  match k with
  | KStr s => PStr s
  | KCoord c => PTup [PInt (fst c); PInt (snd c)]
  end.

Fixpoint chars (s : string) : list pyv :=
  match s with
  | EmptyString => []
  | String a s' => PStr (String a EmptyString) :: chars s'
  end.

(** [v[k]].  Indexing a tensor, a tuple, a list or a string by a string raises. *)
Definition py_get (v : pyv) (k : pykey) : res pyv :=
  match v with
  | PDict d => dget_exn d k
  | _ => Err TypeError
  end.

(** [v.keys()], [v.items()], [v.values()].  A dense tensor has a method [values], which raises
    RuntimeError; the other values do not have the attribute. *)
Definition py_items (v : pyv) : res (list (pykey * pyv)) :=
  match v with PDict d => Ok d | _ => Err AttributeError end.
Definition py_keys (v : pyv) : res (list pykey) :=
  bind (py_items v) (fun d => Ok (dkeys d)).
Definition py_values (v : pyv) : res (list pyv) :=
  match v with
  | PDict d => Ok (dvals d)
  | PT _ => Err RuntimeError
  | _ => Err AttributeError
  end.

(** [for x in v]; iterating over a tensor does not occur on the modelled paths *)
Definition py_iter (v : pyv) : res (list pyv) :=
  match v with
  | PTup l | PList l => Ok l
  | PDict d => Ok (map key_val (dkeys d))
  | PSet l => Ok (map PStr l)
  | PStr s => Ok (chars s)
  | _ => Err TypeError
  end.

(** [a, b = v] *)
Definition unpack2 (v : pyv) : res (pyv * pyv) :=
  l <- py_iter v ;;
  match l with
  | [a; b] => Ok (a, b)
  | _ => Err ValueError
  end.

(** [t.requires_grad_(False)] *)
Definition off (t : tens) : tens := mkt (t_val t) false.
Definition grad_off (v : pyv) : res pyv :=
  match v with PT t => Ok (PT (off t)) | _ => Err AttributeError end.

(** [for t in v.values(): t.requires_grad_(False)]: changes the tensors in [v] *)
Definition values_off (v : pyv) : res pyv :=
  vs <- py_values v ;;
  match v with
  | PDict d =>
      d' <- mapM (fun kv => x <- grad_off (snd kv) ;; Ok (fst kv, x)) d ;;
      Ok (PDict d')
  | _ => Ok v
  end.

(** [t.is_complex()] and [True in [t.is_complex() for t in v.values()]] *)
Definition is_complex (v : pyv) : res bool :=
  match v with PT t => Ok (cplx (t_val t)) | _ => Err AttributeError end.
Definition values_complex (v : pyv) : res bool :=
  vs <- py_values v ;;
  bs <- mapM is_complex vs ;;
  Ok (existsb (fun b => b) bs).

Definition tensor (v : pyv) : res tens :=
  match v with PT t => Ok t | _ => Err TypeError end.

(** optim/ad_optim_lbfgs_mod.py:36-41 *)
Definition store_checkpoint (epoch : Z) (loss opt parameters : pyv) : pyv :=
  PDict [(KStr "epoch", PInt epoch); (KStr "loss", loss);
         (KStr "parameters", parameters); (KStr "optimizer_state_dict", opt)].

(** ** IPEPS, ipeps.py:246-284.  [complex]: [self.dtype] is torch.complex128 *)
Record ipeps := mk_ipeps { i_sites : pyv; i_complex : bool }.

Definition ipeps_parameters (st : ipeps) : res (list pyv) := py_values (i_sites st).
Definition ipeps_checkpoint (st : ipeps) : pyv := i_sites st.
Definition ipeps_load (st : ipeps) (file : pyv) : res ipeps :=
  sites <- py_get file (KStr "parameters") ;;
  sites <- values_off sites ;;
  c <- values_complex sites ;;
  Ok (mk_ipeps sites (if c then true else i_complex st)).

(** ** IPEPS_1S_Q, ipeps_1s_Q.py:66-104 *)
Record ipeps_q := mk_q { q_sites : pyv; q_q : pyv; q_complex : bool }.

Definition q_parameters (st : ipeps_q) : res (list pyv) :=
  vs <- py_values (q_sites st) ;; Ok (vs ++ [q_q st]).
Definition q_checkpoint (st : ipeps_q) : pyv := PTup [q_sites st; q_q st].
Definition q_load (st : ipeps_q) (file : pyv) : res ipeps_q :=
  params <- py_get file (KStr "parameters") ;;
  ' (sites, q) <- unpack2 params ;;
  sites <- values_off sites ;;
  q <- grad_off q ;;
  c <- values_complex sites ;;
  Ok (mk_q sites q (if c then true else q_complex st)).

(** ** IPEPS_D2SYM, ipeps_d2.py:39-70.  [flip]: permute(0,3,2,1,4) *)
Variable flip : A -> A.
Record d2 := mk_d2 { d_parent : pyv; d_sites : pyv; d_complex : bool }.

Definition d2_build (parent : pyv) : res pyv :=
  t <- tensor parent ;;
  Ok (PDict [(KCoord (0, 0)%Z, PT t);
             (KCoord (0, 1)%Z, PT (mkt (flip (t_val t)) (t_grad t)))]).
Definition d2_new (dtype_c : bool) (site : tens) : res d2 :=
  sites <- d2_build (PT site) ;;
  c <- values_complex sites ;;
  Ok (mk_d2 (PT site) sites (if c then true else dtype_c)).
Definition d2_parameters (st : d2) : res (list pyv) := Ok [d_parent st].
Definition d2_checkpoint (st : d2) : pyv := d_parent st.
Definition d2_load (st : d2) (file : pyv) : res d2 :=
  parent <- py_get file (KStr "parameters") ;;
  parent <- grad_off parent ;;
  sites <- d2_build parent ;;
  Ok (mk_d2 parent sites (d_complex st)).

(** ** IPEPS_LC_1SITE_PG, ipeps_lc.py:107-211 *)

(** [lincomb ts c]: einsum of the coefficients [c] with the stack of [ts], where [true] marks a
    tensor multiplied by 1j; raises when the sizes do not match *)
Variable lincomb : list (bool * A) -> A -> res A.

(** [m["meta"]["pg"]] *)
Definition pg_of (m : pyv) : res pyv :=
  x <- py_get m (KStr "meta") ;; py_get x (KStr "pg").

Definition hashable_str (v : pyv) : res string :=
  match v with PStr s => Ok s | _ => Err TypeError end.

(** [set([m["meta"]["pg"] for m,t in elem_tensors])] *)
Definition irreps_of (elem : pyv) : res (list string) :=
  l <- py_iter elem ;;
  mapM (fun x => ' (m, _) <- unpack2 x ;; p <- pg_of m ;; hashable_str p) l.

Definition set_eq (a b : list string) : bool :=
  forallb (fun s => existsb (String.eqb s) b) a && forallb (fun s => existsb (String.eqb s) a) b.

(** [filter(lambda x: x[0]["meta"]["pg"]==p, elem_tensors)] and [[t for m,t in ...]] *)
Definition elem_pg (x : pyv) : res (string * tens) :=
  ' (m, t) <- unpack2 x ;; p <- pg_of m ;; s <- hashable_str p ;; t <- tensor t ;; Ok (s, t).

Definition ts_all (imag : bool) (l : list (string * tens)) : list (bool * tens) :=
  map (fun pt => (imag, snd pt)) l.
Definition ts_of (imag : bool) (p : string) (l : list (string * tens)) : list (bool * tens) :=
  ts_all imag (filter (fun pt => String.eqb (fst pt) p) l).

(** the einsum of tensors: the result requires a gradient when an operand does *)
Definition lincomb_t (ts : list (bool * tens)) (c : pyv) : res pyv :=
  c <- tensor c ;;
  a <- lincomb (map (fun bt => (fst bt, t_val (snd bt))) ts) (t_val c) ;;
  Ok (PT (mkt a (t_grad c || existsb (fun bt => t_grad (snd bt)) ts))).

(** lines 188-211: the stack of elementary tensors ... *)
Definition lc_stack (irreps : list string) (elem : pyv) : res (list (bool * tens)) :=
  l <- py_iter elem ;;
  l <- mapM elem_pg l ;;
  if set_eq irreps ["A_1"%string] then Ok (ts_all false l)
  else if set_eq irreps ["A_1"%string; "A_2"%string]
       then Ok (ts_of false "A_1" l ++ ts_of true "A_2" l)
       else Err NotImplementedError.

(** ... and one site per coefficient vector *)
Definition lc_build (irreps : list string) (elem coeffs : pyv) : res pyv :=
  ts <- lc_stack irreps elem ;;
  d <- py_items coeffs ;;
  d <- mapM (fun kc => s <- lincomb_t ts (snd kc) ;; Ok (fst kc, s)) d ;;
  Ok (PDict d).

Record lc := mk_lc { l_elem : pyv; l_coeffs : pyv; l_irreps : list string; l_sites : pyv }.

Definition lc_new (elem coeffs : pyv) : res lc :=
  irreps <- irreps_of elem ;;
  sites <- lc_build irreps elem coeffs ;;
  Ok (mk_lc elem coeffs irreps sites).
Definition lc_parameters (st : lc) : res (list pyv) := py_values (l_coeffs st).
Definition lc_checkpoint (st : lc) : pyv :=
  PDict [(KStr "coeffs", l_coeffs st); (KStr "elem_tensors", l_elem st);
         (KStr "pg_irreps", PSet (l_irreps st))].

(** [any([c.numel()==len(elem) for c in coeffs.values()])] *)
Definition some_full (elem coeffs : pyv) : res bool :=
  n <- py_iter elem ;;
  vs <- py_values coeffs ;;
  bs <- mapM (fun v => t <- tensor v ;; Ok (Z.eqb (numel (t_val t)) (Z.of_nat (length n)))) vs ;;
  Ok (existsb (fun b => b) bs).

(** lines 167-186; [params["coeffs"]] in the assertion is the dictionary that was just changed *)
Definition lc_load (st : lc) (file : pyv) : res lc :=
  params <- py_get file (KStr "parameters") ;;
  ks <- py_items params ;;
  coeffs <- (if dmem ks (KStr "coeffs") then py_get params (KStr "coeffs") else Ok params) ;;
  coeffs <- values_off coeffs ;;
  elem <- (if dmem ks (KStr "elem_tensors")
           then e <- py_get params (KStr "elem_tensors") ;;
                _ <- py_get params (KStr "coeffs") ;;
                b <- some_full e coeffs ;;
                _ <- py_assert b ;; Ok e
           else Ok (l_elem st)) ;;
  irreps <- irreps_of elem ;;
  sites <- lc_build irreps elem coeffs ;;
  Ok (mk_lc elem coeffs irreps sites).

(** load_checkpoint_lc_1site_pg, lines 509-525: the constructor is called with keyword arguments
    [vertexToSite], [lX], [lY], which it does not have *)
Definition lc_load_function (file : pyv) : res lc :=
  params <- py_get file (KStr "parameters") ;;
  ks <- py_items params ;;
  _ <- py_assert (dmem ks (KStr "coeffs")) ;;
  _ <- py_assert (dmem ks (KStr "elem_tensors")) ;;
  _ <- py_assert (dmem ks (KStr "pg_irreps")) ;;
  e <- py_get params (KStr "elem_tensors") ;;
  c <- py_get params (KStr "coeffs") ;;
  b <- some_full e c ;;
  _ <- py_assert b ;;
  irreps <- irreps_of e ;;
  p <- py_get params (KStr "pg_irreps") ;;
  _ <- py_assert (match p with PSet l => set_eq l irreps | _ => false end) ;;
  Err TypeError.

(** ** IPEPS_LC_BP, ipeps_lc_bp.py:35-142.  [elem_tensors] and [coeffs] are dictionaries with the
    keys "site" and "bond"; [dress a b]: einsum of the site tensor with four bond tensors *)
Variable dress : A -> A -> res A.

Definition bp_build (irreps : list string) (elem coeffs : pyv) : res pyv :=
  es <- py_get elem (KStr "site") ;;
  ts <- lc_stack irreps es ;;
  eb <- py_get elem (KStr "bond") ;;
  eb <- py_iter eb ;;
  tb <- mapM (fun x => ' (_, t) <- unpack2 x ;; tensor t) eb ;;
  cs <- py_get coeffs (KStr "site") ;;
  cb <- py_get coeffs (KStr "bond") ;;
  a <- lincomb_t ts cs ;;
  b <- lincomb_t (map (fun t => (false, t)) tb) cb ;;
  a <- tensor a ;;
  b <- tensor b ;;
  s <- dress (t_val a) (t_val b) ;;
  Ok (PDict [(KCoord (0, 0)%Z, PT a); (KCoord (1, 0)%Z, PT (mkt s (t_grad a || t_grad b)))]).

Definition bp_new (elem coeffs : pyv) : res lc :=
  es <- py_get elem (KStr "site") ;;
  irreps <- irreps_of es ;;
  sites <- bp_build irreps elem coeffs ;;
  Ok (mk_lc elem coeffs irreps sites).

(** lines 87-103: the loop over [self.coeffs[t_type].values()], and [for m,t in self.elem_tensors] *)
Definition bp_load (st : lc) (file : pyv) : res lc :=
  params <- py_get file (KStr "parameters") ;;
  ks <- py_items params ;;
  coeffs <- (if dmem ks (KStr "coeffs") then py_get params (KStr "coeffs") else Ok params) ;;
  d <- py_items coeffs ;;
  d <- mapM (fun kc => x <- values_off (snd kc) ;; Ok (fst kc, x)) d ;;
  elem <- (if dmem ks (KStr "elem_tensors") then py_get params (KStr "elem_tensors")
           else Ok (l_elem st)) ;;
  irreps <- irreps_of elem ;;
  sites <- bp_build irreps elem (PDict d) ;;
  Ok (mk_lc elem (PDict d) irreps sites).

(** ** IPEPS_TRGL_1S_TTPHYS_PG and IPEPS_TRGL_1S_TBT_PG, ipeps_trgl_pg.py:40-81, 270-309.
    [trgl a p]: the einsum of the class *)
Variable trgl : A -> A -> res A.
Record tri := mk_tri { t_elem : pyv; t_sites : pyv; t_complex : bool }.

Definition tri_build (elem : pyv) : res pyv :=
  a <- py_get elem (KStr "t_aux") ;;
  p <- py_get elem (KStr "t_phys") ;;
  a <- tensor a ;;
  p <- tensor p ;;
  s <- trgl (t_val a) (t_val p) ;;
  Ok (PDict [(KCoord (0, 0)%Z, PT (mkt s (t_grad a || t_grad p)))]).
Definition tri_new (dtype_c : bool) (t_aux t_phys : tens) : res tri :=
  let elem := PDict [(KStr "t_aux", PT t_aux); (KStr "t_phys", PT t_phys)] in
  sites <- tri_build elem ;;
  c <- values_complex sites ;;
  Ok (mk_tri elem sites (if c then true else dtype_c)).
Definition tri_parameters (st : tri) : res (list pyv) := py_values (t_elem st).
Definition tri_checkpoint (st : tri) : pyv := PDict [(KStr "elem_tensors", t_elem st)].
(** lines 62-68, 290-296 *)
Definition tri_load (st : tri) (file : pyv) : res tri :=
  elem <- py_get file (KStr "elem_tensors") ;;
  elem <- values_off elem ;;
  c <- values_complex elem ;;
  sites <- tri_build elem ;;
  Ok (mk_tri elem sites (if c then true else t_complex st)).

(** ** IPESS_KAGOME_GENERIC, ipess_kagome.py:31-81.
    [ipess T_u B_c T_d B_b B_a]: the einsum, the reshape and the normalization *)
Variable ipess : A -> A -> A -> A -> A -> res A.

Definition five : list pykey :=
  [KStr "T_u"; KStr "T_d"; KStr "B_a"; KStr "B_b"; KStr "B_c"].
Definition keys_five (d : list (pykey * pyv)) : bool :=
  forallb (fun k => existsb (eqb k) five) (dkeys d) && forallb (fun k => dmem d k) five.

Definition kagome_site (sub : pyv) : res pyv :=
  tu <- py_get sub (KStr "T_u") ;;
  bc <- py_get sub (KStr "B_c") ;;
  td <- py_get sub (KStr "T_d") ;;
  bb <- py_get sub (KStr "B_b") ;;
  ba <- py_get sub (KStr "B_a") ;;
  tu <- tensor tu ;; bc <- tensor bc ;; td <- tensor td ;; bb <- tensor bb ;; ba <- tensor ba ;;
  s <- ipess (t_val tu) (t_val bc) (t_val td) (t_val bb) (t_val ba) ;;
  Ok (PT (mkt s (t_grad tu || t_grad bc || t_grad td || t_grad bb || t_grad ba))).

Definition kagome_build (ip : pyv) : res pyv :=
  d <- py_items ip ;;
  d <- mapM (fun ks => s <- kagome_site (snd ks) ;; Ok (fst ks, s)) d ;;
  Ok (PDict d).

Record kag := mk_kag { k_ipess : pyv; k_sites : pyv }.

Definition kag_new (ip : pyv) : res kag :=
  d <- py_items ip ;;
  let ip := if keys_five d then PDict [(KCoord (0, 0)%Z, ip)] else ip in
  sites <- kagome_build ip ;;
  Ok (mk_kag ip sites).
Definition kag_parameters (st : kag) : res (list pyv) :=
  subs <- py_values (k_ipess st) ;;
  ls <- mapM py_values subs ;;
  Ok (List.concat ls).
Definition kag_checkpoint (st : kag) : pyv := k_ipess st.
(** lines 45-60 *)
Definition kag_load (st : kag) (file : pyv) : res kag :=
  ip <- py_get file (KStr "parameters") ;;
  d <- py_items ip ;;
  ip <- (if keys_five d then Ok (PDict [(KCoord (0, 0)%Z, ip)])
         else _ <- mapM (fun ks => s <- py_items (snd ks) ;; py_assert (keys_five s)) d ;; Ok ip) ;;
  d <- py_items ip ;;
  d <- mapM (fun ks => s <- values_off (snd ks) ;; Ok (fst ks, s)) d ;;
  sites <- kagome_build (PDict d) ;;
  Ok (mk_kag (PDict d) sites).

(** ** IPESS_KAGOME_PG, ipess_kagome.py:381-473 *)
Record kpg := mk_kpg { p_ud : bool; p_bs : bool; p_elem : pyv; p_ipess : pyv; p_sites : pyv }.

(** [symm]: [_to_PG_symmetric] for the irreps given to the constructor, one tensor at a time
    (lines 547-581); the identity when [pg_symmetrize] is false *)
Definition pg_symmetric (symm : string -> A -> A) (elem : list (string * tens)) : pyv :=
  PDict (map (fun kt => (KStr (fst kt), PT (mkt (symm (fst kt) (t_val (snd kt))) (t_grad (snd kt))))) elem).

(** [ipess_tensors] of the constructor, lines 407-413; [load_checkpoint] and [add_noise] build the
    same dictionary with the entries in another order *)
Definition pg_ipess_new (ud bs : bool) (elem : pyv) : res pyv :=
  tu <- py_get elem (KStr "T_u") ;;
  td <- (if ud then py_get elem (KStr "T_u") else py_get elem (KStr "T_d")) ;;
  bc <- py_get elem (KStr "B_c") ;;
  ba <- (if bs then py_get elem (KStr "B_c") else py_get elem (KStr "B_a")) ;;
  bb <- (if bs then py_get elem (KStr "B_c") else py_get elem (KStr "B_b")) ;;
  Ok (PDict [(KStr "T_u", tu); (KStr "T_d", td); (KStr "B_c", bc); (KStr "B_a", ba); (KStr "B_b", bb)]).

Definition some_tensor (o : option tens) : res tens :=
  match o with Some t => Ok t | None => Err AssertionError end.

Definition kpg_new (symm : string -> A -> A) (ud bs : bool) (T_u B_c : tens)
    (T_d B_a B_b : option tens) : res kpg :=
  let elem0 := [("T_u"%string, T_u); ("B_c"%string, B_c)] in
  elem1 <- (if ud then Ok elem0 else t <- some_tensor T_d ;; Ok (elem0 ++ [("T_d"%string, t)])) ;;
  elem2 <- (if bs then Ok elem1
            else a <- some_tensor B_a ;; b <- some_tensor B_b ;;
                 Ok (elem1 ++ [("B_a"%string, a); ("B_b"%string, b)])) ;;
  let elem := pg_symmetric symm elem2 in
  ip <- pg_ipess_new ud bs elem ;;
  k <- kag_new ip ;;
  Ok (mk_kpg ud bs elem (k_ipess k) (k_sites k)).

Definition kpg_parameters (st : kpg) : res (list pyv) := py_values (p_elem st).
Definition kpg_checkpoint (st : kpg) : pyv := p_elem st.

(** [pg_ipess]: lines 456-468.  The flags of the tensors are switched off after the dictionary was
    built; since the dictionary holds the same tensor objects the order does not matter, and the
    model switches them off first. *)
Definition pg_ipess (ud bs : bool) (elem : pyv) : res pyv :=
  tu <- py_get elem (KStr "T_u") ;;
  bc <- py_get elem (KStr "B_c") ;;
  td <- (if ud then Ok tu else py_get elem (KStr "T_d")) ;;
  bb <- (if bs then Ok bc else py_get elem (KStr "B_b")) ;;
  ba <- (if bs then Ok bc else py_get elem (KStr "B_a")) ;;
  Ok (PDict [(KStr "T_u", tu); (KStr "T_d", td); (KStr "B_a", ba); (KStr "B_b", bb); (KStr "B_c", bc)]).

(** lines 437-454: files of older versions.  In the second branch the name [SYM_BOND_S] does not
    exist when both further bond tensors are present. *)
Definition kpg_elem (ud : bool) (elem_t : pyv) : res pyv :=
  ks <- py_items elem_t ;;
  let has k := dmem ks (KStr k) in
  if has "BOND_S"%string && has "UP_T"%string then
    u <- py_get elem_t (KStr "UP_T") ;;
    b <- py_get elem_t (KStr "BOND_S") ;;
    let e := [(KStr "T_u", u); (KStr "B_c", b)] in
    if has "DOWN_T"%string && negb ud then d <- py_get elem_t (KStr "DOWN_T") ;; Ok (PDict (e ++ [(KStr "T_d", d)]))
    else Ok (PDict e)
  else if has "BOND_S1"%string && has "UP_T"%string then
    u <- py_get elem_t (KStr "UP_T") ;;
    b <- py_get elem_t (KStr "BOND_S1") ;;
    let e := [(KStr "T_u", u); (KStr "B_c", b)] in
    e <- (if has "DOWN_T"%string && negb ud then d <- py_get elem_t (KStr "DOWN_T") ;; Ok (e ++ [(KStr "T_d", d)])
          else Ok e) ;;
    if has "BOND_S2"%string && has "BOND_S3"%string then Err NameError
    else Ok (PDict e)
  else Ok elem_t.

Definition kpg_load (st : kpg) (file : pyv) : res kpg :=
  elem_t <- py_get file (KStr "parameters") ;;
  elem <- kpg_elem (p_ud st) elem_t ;;
  elem <- values_off elem ;;
  ip <- pg_ipess (p_ud st) (p_bs st) elem ;;
  let ip := PDict [(KCoord (0, 0)%Z, ip)] in
  sites <- kagome_build ip ;;
  Ok (mk_kpg (p_ud st) (p_bs st) elem ip sites).

(** ** IPESS_KAGOME_PG_LC, ipess_kagome.py:780-918 *)
Record klc := mk_klc
  { c_ud : bool; c_bs : bool; c_pgs : dict string string; c_coeffs : pyv; c_basis : pyv;
    c_elem : pyv; c_ipess : pyv; c_sites : pyv }.

(** lines 860-897.  For an irrep of the first list the basis tensors of the first irrep come first
    and those of the second, multiplied by 1j, follow; for the second irrep the other way round. *)
Definition klc_stack (pgs : dict string string) (k : string) (basis : pyv) : res (list (bool * tens)) :=
  l <- py_iter basis ;;
  if existsb (String.eqb k) ["T_u"%string; "T_d"%string] then
    match dget pgs k with
    | Some p =>
        if String.eqb p "A_1" then l <- mapM elem_pg l ;; Ok (ts_of false "A_1" l ++ ts_of true "A_2" l)
        else if String.eqb p "A_2" then l <- mapM elem_pg l ;; Ok (ts_of false "A_2" l ++ ts_of true "A_1" l)
        else ts <- mapM (fun x => ' (_, t) <- unpack2 x ;; tensor t) l ;; Ok (map (fun t => (false, t)) ts)
    | None => ts <- mapM (fun x => ' (_, t) <- unpack2 x ;; tensor t) l ;; Ok (map (fun t => (false, t)) ts)
    end
  else if existsb (String.eqb k) ["B_a"%string; "B_b"%string; "B_c"%string] then
    match dget pgs k with
    | Some p =>
        if String.eqb p "A" then l <- mapM elem_pg l ;; Ok (ts_of false "A" l ++ ts_of true "B" l)
        else if String.eqb p "B" then l <- mapM elem_pg l ;; Ok (ts_of false "B" l ++ ts_of true "A" l)
        else ts <- mapM (fun x => ' (_, t) <- unpack2 x ;; tensor t) l ;; Ok (map (fun t => (false, t)) ts)
    | None => ts <- mapM (fun x => ' (_, t) <- unpack2 x ;; tensor t) l ;; Ok (map (fun t => (false, t)) ts)
    end
  else Err UnboundLocalError.

(** build_elem_tensors *)
Definition klc_elem (pgs : dict string string) (coeffs basis : pyv) : res pyv :=
  d <- py_items coeffs ;;
  d <- mapM (fun kc =>
         match fst kc with
         | KStr k =>
             b <- py_get basis (KStr k) ;;
             ts <- klc_stack pgs k b ;;
             e <- lincomb_t ts (snd kc) ;;
             Ok (KStr k, e)
         | KCoord _ => Err UnboundLocalError
         end) d ;;
  Ok (PDict d).

(** update_, lines 899-918: [self.ipess_tensors['T_d']= ...] puts the tensor next to the key (0,0)
    and not into the dictionary of the five tensors *)
Definition klc_update (ud bs : bool) (pgs : dict string string) (coeffs basis : pyv) : res klc :=
  elem <- klc_elem pgs coeffs basis ;;
  tu <- py_get elem (KStr "T_u") ;;
  bc <- py_get elem (KStr "B_c") ;;
  let ip := [(KCoord (0, 0)%Z,
              PDict [(KStr "T_u", tu); (KStr "T_d", tu); (KStr "B_a", bc); (KStr "B_b", bc); (KStr "B_c", bc)])] in
  ip <- (if ud then Ok ip else t <- py_get elem (KStr "T_d") ;; Ok (dset ip (KStr "T_d") t)) ;;
  ip <- (if bs then Ok ip
         else b <- py_get elem (KStr "B_b") ;; a <- py_get elem (KStr "B_a") ;;
              Ok (dset (dset ip (KStr "B_b") b) (KStr "B_a") a)) ;;
  sites <- kagome_build (PDict ip) ;;
  Ok (mk_klc ud bs pgs coeffs basis elem (PDict ip) sites).

(** the constructor, lines 780-812; an argument is a pair of a coefficient vector and a basis *)
Definition cb := (tens * pyv)%type.
Definition some_cb (o : option cb) : res cb :=
  match o with Some t => Ok t | None => Err TypeError end.
Definition elem_tensor (elem : pyv) (k : string) : res (option tens) :=
  d <- py_items elem ;;
  match dget d (KStr k) with
  | Some v => t <- tensor v ;; Ok (Some t)
  | None => Ok None
  end.

Definition klc_new (ud bs : bool) (pgs : dict string string) (T_u B_c : cb)
    (T_d B_a B_b : option cb) : res klc :=
  let l0 := [("T_u"%string, T_u); ("B_c"%string, B_c)] in
  l1 <- (if ud then Ok l0 else t <- some_cb T_d ;; Ok (l0 ++ [("T_d"%string, t)])) ;;
  l2 <- (if bs then Ok l1
         else a <- some_cb B_a ;; b <- some_cb B_b ;;
              Ok (l1 ++ [("B_a"%string, a); ("B_b"%string, b)])) ;;
  _ <- py_assert (forallb (fun k => existsb (fun k' => eqb (KStr k) k') five) (dkeys pgs)) ;;
  let coeffs := PDict (map (fun kx => (KStr (fst kx), PT (fst (snd kx)))) l2) in
  let basis := PDict (map (fun kx => (KStr (fst kx), snd (snd kx))) l2) in
  elem <- klc_elem pgs coeffs basis ;;
  tu <- elem_tensor elem "T_u" ;;
  bc <- elem_tensor elem "B_c" ;;
  td <- elem_tensor elem "T_d" ;;
  ba <- elem_tensor elem "B_a" ;;
  bb <- elem_tensor elem "B_b" ;;
  tu <- some_tensor tu ;;
  bc <- some_tensor bc ;;
  k <- kpg_new (fun _ a => a) ud bs tu bc td ba bb ;;
  Ok (mk_klc ud bs pgs coeffs basis (p_elem k) (p_ipess k) (p_sites k)).

Definition klc_parameters (st : klc) : res (list pyv) := py_values (c_coeffs st).
Definition klc_checkpoint (st : klc) : pyv :=
  PDict [(KStr "coeffs", c_coeffs st); (KStr "basis_t", c_basis st)].
Definition klc_load (st : klc) (file : pyv) : res klc :=
  p <- py_get file (KStr "parameters") ;;
  coeffs <- py_get p (KStr "coeffs") ;;
  basis <- py_get p (KStr "basis_t") ;;
  klc_update (c_ud st) (c_bs st) (c_pgs st) coeffs basis.

(** create_from_checkpoint, lines 845-858 *)
Definition opt_cb (d : list (string * cb)) (k : string) : option cb := dget d k.
Definition klc_create (ud bs : bool) (pgs : dict string string) (file : pyv) : res klc :=
  p <- py_get file (KStr "parameters") ;;
  coeffs <- py_get p (KStr "coeffs") ;;
  basis <- py_get p (KStr "basis_t") ;;
  d <- py_items coeffs ;;
  d <- mapM (fun kc => match fst kc with
                       | KStr k => b <- py_get basis (KStr k) ;; c <- tensor (snd kc) ;; Ok (k, (c, b))
                       | KCoord _ => Err TypeError
                       end) d ;;
  tu <- dget_exn d "T_u"%string ;;
  bc <- dget_exn d "B_c"%string ;;
  klc_new ud bs pgs tu bc (opt_cb d "T_d") (opt_cb d "B_a") (opt_cb d "B_b").

End StateCk.

Arguments tens : clear implicits.
Arguments pyv : clear implicits.
