(** Model of ipeps/ipeps_d2.py: IPEPS_D2SYM 6-80, extend_bond_dim 82-102, read_ipeps_d2 104-111, write_ipeps_d2 113-116;
    ipeps/ipeps_kagome.py: IPEPS_KAGOME 10-79, read_ipeps_kagome 81-104.

    The constructor of IPEPS, its files and the enlargement of a site are those of [Lattice], [StateIO] and [Extend].
    [amax]: torch.max(torch.abs(.)) of the elements.  [root]: int(round(n**(1./3.))).  Left out: dtypes other than real and complex, devices,
    requires_grad_, rounding, the configuration arguments. *)
From Verif Require Import Base Text Tensor TensorIO Lattice StateIO Extend C4v.
Open Scope list_scope.
Open Scope nat_scope.
Open Scope res_scope.

(** ** IPEPS_D2SYM; [flip] is permute(0,3,2,1,4).contiguous() *)
Section D2.
Context {T DT DV : Type} `{EqDec DT} `{EqDec DV}.
Variable dtype_of : T -> DT.
Variable device_of : T -> DV.
Variable flip : T -> res T.

(** [parent = None]: the attribute parent_site was never assigned *)
Record d2 := mkD2 { parent : option T; base : ipeps T }.
Definition build_onsite_tensors (A : T) : res (dict coord T) := B <- flip A ;; Ok [((0, 0)%Z, A); ((0, 1)%Z, B)].
Definition d2_init (site : option T) : res d2 :=
  sites <- match site with Some A => build_onsite_tensors A | None => Ok [] end ;;
  st <- ipeps_init (L := Z) dtype_of device_of (Some sites) (Some (pbc 1 2)) None (Some 1%Z) (Some 2%Z) ;;
  Ok (mkD2 site st).
(** self.parent_site= A; self.sites= self.build_onsite_tensors() *)
Definition set_parent (s : d2) (A : T) : res d2 :=
  sites <- build_onsite_tensors A ;; Ok (mkD2 (Some A) (mk_ipeps (Some sites) (i_lX (base s)) (i_lY (base s)) (i_v2s (base s)))).
Definition d2_load_checkpoint (s : d2) (parameters : T) : res d2 := set_parent s parameters.
Definition d2_get_checkpoint (s : d2) : res T := match parent s with Some A => Ok A | None => Err AttributeError end.
End D2.

Section D2Tensor.
Context {K : Type} (zero half : K) (add mul : K -> K -> K) (div : K -> K -> K) (amax : list K -> K).
Notation ten := (tensor K).
Definition flip_t (A : ten) : res ten := tpermute zero A [0; 3; 2; 1; 4].
(** one dtype, one device *)
Definition d2_new := d2_init (T := ten) (fun _ => true) (fun _ => true) flip_t.
Definition d2_add_noise (s : d2 (T := ten)) (noise : K) (rand_t : ten) : res d2 :=
  A <- d2_get_checkpoint s ;;
  t <- tbin zero add A (tmap (mul noise) rand_t) ;;
  t <- make_d2_symm zero half add mul t ;;
  match tdata t with
  | [] => Err RuntimeError
  | l => set_parent flip_t s (tmap (fun x => div x (amax l)) t)
  end.
Definition d2_get_aux_bond_dims (s : d2 (T := ten)) : res (list nat) := A <- d2_get_checkpoint s ;; Ok (tl (tdims A)).
Definition d2_extend (s : d2 (T := ten)) (new_d : nat) : res d2 :=
  A <- d2_get_checkpoint s ;; t <- extend_site zero (fun x => x) Cplx new_d A ;; d2_new (Some t).
End D2Tensor.

Section Files.
Context {R : Type} (zero : R) (add : R -> R -> R) (fmt : R -> string) (parse : string -> option R)
  (fmtc : R * R -> string) (parsec : string -> option (R * R)) (normalized : ten R -> ten R).
Notation write_ipeps := (write_ipeps fmt fmtc normalized).
Notation read_ipeps := (read_ipeps zero add parse parsec).
Definition flip_r (A : ten R) : res (ten R) := ten_permute zero A [0; 3; 2; 1; 4].
Definition d2_newr := d2_init ten_cplx ten_device flip_r.
Definition d2_write (f : io_format) (aux_seq : list nat) (normalize : bool) (s : d2 (T := ten R)) : res jstate :=
  A <- d2_get_checkpoint s ;; tmp <- d2_newr (Some A) ;; write_ipeps f aux_seq normalize (base tmp).
Definition d2_read (complex_default : bool) (aux_seq : list nat) (js : jstate) : res (d2 (T := ten R)) :=
  st <- read_ipeps complex_default None aux_seq js ;;
  sites <- dict_sites st ;;
  _ <- py_assert (Nat.eqb (length sites) 2 && Z.eqb (i_lX st) 1 && Z.eqb (i_lY st) 2) ;;
  A <- ipeps_site st (0, 0)%Z ;; d2_newr (Some A).

(** ** IPEPS_KAGOME; [k_pat = None]: the attribute _pattern was never assigned *)
Record kag {L : Type} := mkKag { k_st : ipeps (ten R); k_pat : option (pattern L) }.
Section Kag.
Context {L : Type} `{EqDec L}.
Definition kag_init (sites : option (dict coord (ten R))) (v2s : option (coord -> res coord)) (p : option (pattern L)) (lX lY : option Z) : res kag :=
  st <- ipeps_init ten_cplx ten_device sites v2s p lX lY ;;
  Ok (mkKag L st (match v2s with Some _ => None | None => pat_truthy p end)).
(** the shape of a tensor *)
Definition tsize (t : ten R) : list nat := match t with TReal t => tdims t | TCplx t => tdims t end.
Variable root : nat -> nat.
Definition kag_get_physical_dim (s : kag (L := L)) : res nat :=
  sites <- dict_sites (k_st s) ;;
  ds <- foldM (fun ds ct =>
    n <- match tsize (snd ct) with n :: _ => Ok n | [] => Err IndexError end ;;
    _ <- py_assert (Nat.eqb (root n * root n * root n) n) ;;
    Ok (if existsb (Nat.eqb (root n)) ds then ds else ds ++ [root n])) sites [] ;;
  match ds with [d] => Ok d | _ => Err AssertionError end.
Definition ten_extend (D : nat) (t : ten R) : res (ten R) :=
  match t with
  | TReal t => r <- extend_site zero (fun x => x) Cplx D t ;; Ok (TReal r)
  | TCplx t => r <- extend_site (zero, zero) (fun x => x) Cplx D t ;; Ok (TCplx r)
  end.
Definition kag_extend (s : kag (L := L)) (D : nat) : res (kag (L := L)) :=
  sites <- dict_sites (k_st s) ;;
  new <- mapM (fun ct => t <- ten_extend D (snd ct) ;; Ok (fst ct, t)) sites ;;
  kag_init (Some new) (Some (i_v2s (k_st s))) None None None.
End Kag.

(** the attribute _pattern of the state returned by read_ipeps exists if its constructor used a pattern *)
Definition kag_read (complex_default : bool) (v2s : option (coord -> res coord)) (aux_seq : list nat) (js : jstate) : res (kag (L := string)) :=
  tmp <- read_ipeps complex_default v2s aux_seq js ;;
  sites <- dict_sites tmp ;;
  p <- match v2s, pat_truthy (option_map PatRows (js_pattern js)) with
       | None, Some p => Ok p
       | _, _ => Err AttributeError
       end ;;
  kag_init (Some sites) v2s (Some p) (Some (i_lX tmp)) (Some (i_lY tmp)).
Definition kag_write {L} (f : io_format) (aux_seq : list nat) (normalize : bool) (s : kag (L := L)) : res jstate := write_ipeps f aux_seq normalize (k_st s).
End Files.
