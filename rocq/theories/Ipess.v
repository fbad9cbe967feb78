(** Model of ipeps/ipess_kagome.py: IPESS_KAGOME_GENERIC.build_onsite_tensors 62-79, get_aux_bond_dims 97-103, extend_bond_dim 108-125;
    IPESS_KAGOME_PG.__init__ 325-413, load_checkpoint 442-473, add_noise 475-498, extend_bond_dim 508-545, _to_PG_symmetric 547-581,
    to_PG_symmetric 583-614, read_ipess_kagome_pg 616-693, write_ipess_kagome_pg 695-722; IPESS_KAGOME_PG_LC.build_elem_tensors 863-900,
    update_ 902-918.

    [amax]: abs().max() of the elements.  [cj]: conj.  [im]: 1.0j.  A dictionary is an insertion-ordered list.  Left out: dtypes, devices,
    requires_grad_, printing, the rest of the constructor of IPEPS (C03, C04), the numbers of the files (C10, C11: a tensor is stored as itself),
    normalisation on writing, the legacy tuple of point groups, IPESS_KAGOME_GENERIC's files, the constructor and the files of the linear combinations.
    Adding tensors of different shapes is an error here, also when torch would broadcast. *)
From Verif Require Import Base Tensor Net Plaq.
Open Scope string_scope.
Open Scope list_scope.
Open Scope nat_scope.
Open Scope res_scope.

Section Ipess.
Context {K : Type} (k0 k1 : K) (kadd kmul ksub : K -> K -> K) (kdiv : K -> K -> K) (half third im : K) (cj : K -> K) (amax : list K -> K).
Notation ten := (tensor K).
Notation einsum := (einsum k0 k1 kadd kmul).
Notation permute := (permute k0).
Notation elts := (dict string ten).

(** the on-site tensor of one cell; 'iab,uji,jkl,vkc,wld->uvwabcd', the labels i,a,b,j,k,u,l,v,c,w,d are 0..10 *)
Definition onsite (e : elts) : res ten :=
  tu <- dget_exn e "T_u" ;; bc <- dget_exn e "B_c" ;; td <- dget_exn e "T_d" ;; bb <- dget_exn e "B_b" ;; ba <- dget_exn e "B_a" ;;
  A <- einsum [(tu, [0; 1; 2]); (bc, [5; 3; 0]); (td, [3; 4; 6]); (bb, [7; 4; 8]); (ba, [9; 6; 10])] [5; 7; 9; 1; 2; 8; 10] ;;
  A <- view A [size ba 0 * size bb 0 * size bc 0; size tu 1; size tu 2; size bb 2; size ba 2] ;;
  match tdata A with [] => Err RuntimeError | l => Ok (tmap (fun x => kdiv x (amax l)) A) end.
Definition build_onsite_tensors (d : dict coord elts) : res (dict coord ten) :=
  mapM (fun p => A <- onsite (snd p) ;; Ok (fst p, A)) d.

(** a sum or difference of tensors *)
Definition same (f : ten -> ten -> ten) (a b : ten) : res ten := if eqb (tdims a) (tdims b) then Ok (f a b) else Err RuntimeError.
Notation plus := (same (tadd kadd)).
Notation minus := (same (tsub ksub)).
Definition is_bond (s : string) : bool := existsb (String.eqb s) ["B_a"; "B_b"; "B_c"].
Definition is_tri (s : string) : bool := existsb (String.eqb s) ["T_u"; "T_d"].
(** one bond tensor, one trivalent tensor *)
Definition sym_bond (pg : string) (t : ten) : res ten :=
  if String.eqb pg "A" then p <- permute t [0; 2; 1] ;; s <- plus t (tmap cj p) ;; Ok (tscl kmul half s)
  else if String.eqb pg "B" then p <- permute t [0; 2; 1] ;; s <- minus t (tmap cj p) ;; Ok (tscl kmul half s)
  else Err RuntimeError.
Definition sym_tri (pg : string) (t : ten) : res ten :=
  if String.eqb pg "A_1" || String.eqb pg "A_2" then
    p <- permute t [1; 2; 0] ;; q <- permute t [2; 0; 1] ;; s <- plus t p ;; s <- plus s q ;;
    let m := tscl kmul third s in
    r <- permute m [0; 2; 1] ;;
    s <- (if String.eqb pg "A_1" then plus m (tmap cj r) else minus m (tmap cj r)) ;; Ok (tscl kmul half s)
  else Err RuntimeError.
(** _to_PG_symmetric; an irrep may be None *)
Definition pg_groups := dict string (option string).
Definition pg_step (e : elts) (acc : elts) (x : string * option string) : res elts :=
  match snd x with
  | None => Ok acc
  | Some pg =>
      acc <- (if is_bond (fst x) then match dget e (fst x) with Some t => r <- sym_bond pg t ;; Ok (dset acc (fst x) r) | None => Ok acc end else Ok acc) ;;
      if is_tri (fst x) then match dget e (fst x) with Some t => r <- sym_tri pg t ;; Ok (dset acc (fst x) r) | None => Ok acc end else Ok acc
  end.
Definition to_pg (pgs : pg_groups) (e : elts) : res elts := foldM (pg_step e) pgs e.

(** IPESS_KAGOME_PG *)
Record pgstate := mkPG { sud : bool; sbs : bool; elem : elts; pgs : pg_groups; ipess : dict coord elts; sites : dict coord ten }.
Definition names := ["T_u"; "T_d"; "B_a"; "B_b"; "B_c"].
Definition mk_pg (T_u B_c : ten) (T_d B_a B_b : option ten) (up_down bond_s : bool) (g : option pg_groups) (symmetrize : bool) : res pgstate :=
  let e := [("T_u", T_u); ("B_c", B_c)] in
  e <- (if up_down then Ok e else match T_d with Some t => Ok (dset e "T_d" t) | None => Err AssertionError end) ;;
  e <- (if bond_s then Ok e else match B_a, B_b with Some a, Some b => Ok (dset (dset e "B_a" a) "B_b" b) | _, _ => Err AssertionError end) ;;
  let g := match g with Some g => g | None => [] end in
  _ <- py_assert (forallb (fun k => existsb (String.eqb k) names) (dkeys g)) ;;
  e <- (if symmetrize then to_pg g e else Ok e) ;;
  tu <- dget_exn e "T_u" ;; td <- dget_exn e (if up_down then "T_u" else "T_d") ;; bc <- dget_exn e "B_c" ;;
  ba <- dget_exn e (if bond_s then "B_c" else "B_a") ;; bb <- dget_exn e (if bond_s then "B_c" else "B_b") ;;
  let ip := [((0, 0)%Z, [("T_u", tu); ("T_d", td); ("B_c", bc); ("B_a", ba); ("B_b", bb)])] in
  s <- build_onsite_tensors ip ;; Ok (mkPG up_down bond_s e g ip s).
(** the last lines of load_checkpoint and add_noise *)
Definition rebuild (s : pgstate) (e : elts) : res pgstate :=
  tu <- dget_exn e "T_u" ;; bc <- dget_exn e "B_c" ;;
  let ip := [("T_u", tu); ("T_d", tu); ("B_a", bc); ("B_b", bc); ("B_c", bc)] in
  ip <- (if sud s then Ok ip else td <- dget_exn e "T_d" ;; Ok (dset ip "T_d" td)) ;;
  ip <- (if sbs s then Ok ip else bb <- dget_exn e "B_b" ;; ba <- dget_exn e "B_a" ;; Ok (dset (dset ip "B_b" bb) "B_a" ba)) ;;
  let ip := [((0, 0)%Z, ip)] in
  l <- build_onsite_tensors ip ;; Ok (mkPG (sud s) (sbs s) e (pgs s) ip l).
Definition load_checkpoint (s : pgstate) (p : elts) : res pgstate :=
  let down e := if dmem p "DOWN_T" && negb (sud s) then t <- dget_exn p "DOWN_T" ;; Ok (dset e "T_d" t) else Ok e in
  e <- (if dmem p "BOND_S" && dmem p "UP_T" then
          u <- dget_exn p "UP_T" ;; b <- dget_exn p "BOND_S" ;; down [("T_u", u); ("B_c", b)]
        else if dmem p "BOND_S1" && dmem p "UP_T" then
          u <- dget_exn p "UP_T" ;; b <- dget_exn p "BOND_S1" ;; e <- down [("T_u", u); ("B_c", b)] ;;
          if dmem p "BOND_S2" && dmem p "BOND_S3" then Err NameError else Ok e
        else Ok p) ;;
  rebuild s e.
(** [rnd k]: the random tensor drawn for tensor k *)
Definition add_noise (s : pgstate) (noise : K) (rnd : string -> ten) : res pgstate :=
  e <- mapM (fun p => t <- same (tadd kadd) (snd p) (tmap (fun x => kmul noise (ksub x half)) (rnd (fst p))) ;; Ok (fst p, t)) (elem s) ;;
  e <- to_pg (pgs s) e ;; rebuild s e.

(** zeros(dims) with t stored in its first elements; the region of t is given by [reg] *)
Definition enlarge (dims reg : list nat) (t : ten) : res ten :=
  if eqb (tdims t) reg then Ok (tbuild dims (fun ix => el k0 t ix)) else Err RuntimeError.
Definition aux_dim (d : dict coord elts) : res nat :=
  l <- mapM (fun p => tu <- dget_exn (snd p) "T_u" ;; td <- dget_exn (snd p) "T_d" ;; Ok (tdims tu ++ tdims td)) d ;;
  match nodup Nat.eq_dec (concat l) with [n] => Ok n | _ => Err AssertionError end.
Definition extend_pg (s : pgstate) (n : nat) : res pgstate :=
  ad <- aux_dim (ipess s) ;; _ <- py_assert (ad <=? n) ;;
  let tri k := t <- dget_exn (elem s) k ;; enlarge [n; n; n] [ad; ad; ad] t in
  let bond k := t <- dget_exn (elem s) k ;; enlarge [size t 0; n; n] [size t 0; ad; ad] t in
  u <- tri "T_u" ;; c <- bond "B_c" ;;
  d <- (if sud s then Ok None else t <- tri "T_d" ;; Ok (Some t)) ;;
  b <- (if sbs s then Ok None else t <- bond "B_b" ;; Ok (Some t)) ;;
  a <- (if sbs s then Ok None else t <- bond "B_a" ;; Ok (Some t)) ;;
  mk_pg u c d a b (sud s) (sbs s) (Some (pgs s)) false.
(** IPESS_KAGOME_GENERIC.extend_bond_dim: self.ververtexToSite does not exist *)
Definition extend_generic (d : dict coord elts) (n : nat) : res (dict coord elts) :=
  ad <- aux_dim d ;; _ <- py_assert (ad <=? n) ;;
  _ <- mapM (fun p =>
    _ <- mapM (fun k => t <- dget_exn (snd p) k ;; enlarge [n; n; n] [ad; ad; ad] t) ["T_u"; "T_d"] ;;
    mapM (fun k => t <- dget_exn (snd p) k ;; enlarge [size t 0; n; n] [size t 0; ad; ad] t) ["B_a"; "B_b"; "B_c"]) d ;;
  Err AttributeError.

Definition opt (b : bool) (e : elts) (k : string) : res (option ten) := if b then Ok None else t <- dget_exn e k ;; Ok (Some t).
Definition to_PG_symmetric (s : pgstate) (up_down bond_s : option bool) (g : option pg_groups) : res pgstate :=
  let ud := match up_down with Some b => b | None => sud s end in
  let bs := match bond_s with Some b => b | None => sbs s end in
  let g := match g with Some g => g | None => pgs s end in
  e <- to_pg g (elem s) ;;
  tu <- dget_exn e "T_u" ;; bc <- dget_exn e "B_c" ;; td <- opt ud e "T_d" ;; ba <- opt bs e "B_a" ;; bb <- opt bs e "B_b" ;;
  mk_pg tu bc td ba bb ud bs (Some g) false.

(** the file: flags, point groups and elementary tensors *)
Record pgfile := mkF { f_ud : bool; f_bs : bool; f_pgs : pg_groups; f_elem : elts }.
Definition write_pg (s : pgstate) (symmetrize : bool) : res pgfile :=
  s <- (if symmetrize then to_PG_symmetric s None None None else Ok s) ;; Ok (mkF (sud s) (sbs s) (pgs s) (elem s)).
Definition read_pg (f : pgfile) : res pgstate :=
  let p := f_elem f in
  let down e := if dmem p "DOWN_T" && negb (f_ud f) then t <- dget_exn p "DOWN_T" ;; Ok (dset e "T_d" t) else Ok e in
  e <- (if dmem p "UP_T" && dmem p "BOND_S" then
          u <- dget_exn p "UP_T" ;; b <- dget_exn p "BOND_S" ;; down [("T_u", u); ("B_c", b)]
        else if dmem p "UP_T" && dmem p "BOND_S1" then
          u <- dget_exn p "UP_T" ;; b <- dget_exn p "BOND_S1" ;; e <- down [("T_u", u); ("B_c", b)] ;;
          if dmem p "BOND_S2" && dmem p "BOND_S3" && negb (f_bs f) then
            b2 <- dget_exn p "BOND_S2" ;; b3 <- dget_exn p "BOND_S3" ;; Ok (dset (dset e "B_b" b2) "B_a" b3)
          else Ok e
        else Ok p) ;;
  _ <- py_assert (forallb (dmem e) (["T_u"; "B_c"] ++ (if f_ud f then [] else ["T_d"]) ++ (if f_bs f then [] else ["B_b"; "B_a"]))) ;;
  tu <- dget_exn e "T_u" ;; bc <- dget_exn e "B_c" ;; td <- opt (f_ud f) e "T_d" ;; ba <- opt (f_bs f) e "B_a" ;; bb <- opt (f_bs f) e "B_b" ;;
  mk_pg tu bc td ba bb (f_ud f) (f_bs f) (Some (f_pgs f)) false.

(** ** linear combinations: a basis tensor carries the label of its irrep *)
Definition stack (l : list ten) : res ten :=
  match l with
  | [] => Err RuntimeError
  | t :: _ => if forallb (fun x => eqb (tdims x) (tdims t)) l then Ok (mkT (length l :: tdims t) (concat (map tdata l))) else Err RuntimeError
  end.
Definition with_pg (g : string) (l : list (string * ten)) : list ten := map snd (filter (fun x => String.eqb (fst x) g) l).
(** the tensors that are stacked: those of irrep g, then those of g' times i *)
Definition two_irreps (g g' : string) (l : list (string * ten)) : list ten := with_pg g l ++ map (tscl kmul im) (with_pg g' l).
Definition basis_of (k : string) (g : option string) (l : list (string * ten)) : res (list ten) :=
  if is_tri k then Ok (match g with Some "A_1" => two_irreps "A_1" "A_2" l | Some "A_2" => two_irreps "A_2" "A_1" l | _ => map snd l end)
  else if is_bond k then Ok (match g with Some "A" => two_irreps "A" "B" l | Some "B" => two_irreps "B" "A" l | _ => map snd l end)
  else Err UnboundLocalError.
Definition build_elem (g : pg_groups) (coeffs : elts) (basis : dict string (list (string * ten))) : res elts :=
  mapM (fun p => l <- dget_exn basis (fst p) ;;
    ts <- basis_of (fst p) (match dget g (fst p) with Some x => x | None => None end) l ;; ts <- stack ts ;;
    t <- einsum [(snd p, [0]); (ts, [0; 1; 2; 3])] [1; 2; 3] ;; Ok (fst p, t)) coeffs.
(** update_: T_d, B_b and B_a are stored in the outer dictionary, next to the cell (0,0) *)
Definition lc_update (up_down bond_s : bool) (g : pg_groups) (coeffs : elts) (basis : dict string (list (string * ten))) : res (elts * elts * dict coord ten) :=
  e <- build_elem g coeffs basis ;;
  tu <- dget_exn e "T_u" ;; bc <- dget_exn e "B_c" ;;
  let ip := [("T_u", tu); ("T_d", tu); ("B_a", bc); ("B_b", bc); ("B_c", bc)] in
  o1 <- (if up_down then Ok [] else t <- dget_exn e "T_d" ;; Ok [t]) ;;
  o2 <- (if bond_s then Ok [] else b <- dget_exn e "B_b" ;; a <- dget_exn e "B_a" ;; Ok [b; a]) ;;
  A <- onsite ip ;;
  match o1 ++ o2 with [] => Ok (e, ip, [((0, 0)%Z, A)]) | _ => Err TypeError end.     (* a tensor is indexed by 'T_u' *)
End Ipess.
