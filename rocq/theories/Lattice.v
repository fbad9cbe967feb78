(** Model of the tiling of the square lattice: [from_pattern], the constructor
    [IPEPS.__init__] and [IPEPS.site].  File modelled: ipeps/ipeps.py. *)
From Verif Require Import Base.
Open Scope Z_scope.
Open Scope res_scope.

(** the expression [(x + abs(x)*n) % n], ipeps/ipeps.py:61, 230, 237, 428 *)
Definition pbc1 (n x : Z) : res Z := pymod (x + Z.abs x * n) n.

(** [((x + abs(x)*Nx)%Nx, (y + abs(y)*Ny)%Ny)], ipeps/ipeps.py:61, 230, 237 *)
Definition pbc (nX nY : Z) (c : coord) : res coord :=
  x <- pbc1 nX (fst c) ;; y <- pbc1 nY (snd c) ;; Ok (x, y).

Section Lattice.
(** labels of a pattern: any hashable type *)
Context {L : Type} `{EqDec L}.

(** argument [pattern] of [from_pattern] / [IPEPS.__init__], ipeps/ipeps.py:14, 91:
    a list of rows or a dictionary (row, column) -> label.
    Simplification: rows are lists (a row without [len] is not modelled),
    labels are hashable (the TypeError branch 76-77 is not modelled). *)
Inductive pattern : Type :=
| PatRows (rows : list (list L))
| PatDict (d : dict coord L).

(** ipeps/ipeps.py:41-49: a dictionary is turned into a list of rows *)
Definition rows_of_dict (d : dict coord L) : res (list (list L)) :=
  match d with
  | [] => Err ValueError   (* [zip] of nothing: "not enough values to unpack" *)
  | _ =>
    min_row <- zmin_list (map fst (dkeys d)) ;;
    min_col <- zmin_list (map snd (dkeys d)) ;;
    max_row <- zmax_list (map fst (dkeys d)) ;;
    max_col <- zmax_list (map snd (dkeys d)) ;;
    if negb ((min_row =? 0) && (min_col =? 0)) then Err PyException
    else
      match mapM (fun r => mapM (fun c => dget_exn d (r, c)) (zrange (max_col + 1)))
                 (zrange (max_row + 1)) with
      | Ok rows => Ok rows
      | Err _ => Err PyException       (* except KeyError: raise Exception *)
      end
  end.

(** [enumerate] *)
Definition enumerate {A} (l : list A) : list (Z * A) :=
  combine (zrange (Z.of_nat (length l))) l.

(** ipeps/ipeps.py:60 *)
Definition mk_site2index (rows : list (list L)) : dict coord L :=
  dict_of (flat_map (fun nyrow => map (fun nxl => ((fst nxl, fst nyrow), snd nxl))
                                      (enumerate (snd nyrow)))
                    (enumerate rows)).

(** ipeps/ipeps.py:61 *)
Definition site2index_pbc (s2i : dict coord L) (nX nY : Z) (c : coord) : res L :=
  c' <- pbc nX nY c ;; dget_exn s2i c'.

(** labels of the left, up, right, down neighbours, ipeps/ipeps.py:68-69 *)
Definition env4 := (L * L * L * L)%type.
Definition env_of (s2i : dict coord L) (nX nY : Z) (c : coord) : res env4 :=
  l <- site2index_pbc s2i nX nY (fst c - 1, snd c) ;;
  u <- site2index_pbc s2i nX nY (fst c, snd c - 1) ;;
  r <- site2index_pbc s2i nX nY (fst c + 1, snd c) ;;
  d <- site2index_pbc s2i nX nY (fst c, snd c + 1) ;;
  Ok (l, u, r, d).

(** body of the double loop, ipeps/ipeps.py:67-75 *)
Definition collect_step (s2i : dict coord L) (nX nY : Z)
  (st : dict L (list coord) * dict L (list env4)) (c : coord)
  : res (dict L (list coord) * dict L (list env4)) :=
  let (ls, le) := st in
  label <- dget_exn s2i c ;;
  env <- env_of s2i nX nY c ;;
  match dget ls label with
  | Some old =>
      olde <- dget_exn le label ;;
      Ok (dset ls label (old ++ [c]), dset le label (olde ++ [env]))
  | None => Ok (dset ls label [c], dset le label [env])
  end.

(** iteration space [for nx in range(Nx): for ny in range(Ny)], ipeps/ipeps.py:65-66 *)
Definition cells (nX nY : Z) : list coord :=
  flat_map (fun nx => map (fun ny => (nx, ny)) (zrange nY)) (zrange nX).

(** [len(set(envs)) > 1], ipeps/ipeps.py:78 *)
Definition ambiguous (envs : list env4) : bool :=
  (1 <? Z.of_nat (length (nodup eq_dec envs))).

(** ipeps/ipeps.py:51-83 *)
Definition from_rows (rows : list (list L)) : res (list coord * dict coord L) :=
  match rows with
  | [] => Err IndexError                       (* pattern[0], not caught *)
  | row0 :: _ =>
    let nX := Z.of_nat (length row0) in
    let nY := Z.of_nat (length rows) in
    if existsb (fun row => negb (Z.of_nat (length row) =? nX)) rows then Err PyException
    else
      let s2i := mk_site2index rows in
      '(ls, le) <- foldM (collect_step s2i nX nY) (cells nX nY) ([], []) ;;
      if existsb ambiguous (dvals le) then Err PyException
      else
        mins <- mapM cmin (dvals ls) ;;
        Ok (csort mins, s2i)
  end.

(** [from_pattern], ipeps/ipeps.py:14-83 *)
Definition from_pattern (p : pattern) : res (list coord * dict coord L) :=
  match p with
  | PatRows rows => from_rows rows
  | PatDict d => rows <- rows_of_dict d ;; from_rows rows
  end.

(** ** the constructor *)
Context {T : Type} {DT DV : Type} `{EqDec DT} `{EqDec DV}.
Variable dtype_of : T -> DT.       (* site.dtype *)
Variable device_of : T -> DV.      (* site.device *)

(** attributes set by [IPEPS.__init__] that matter for the tiling.
    [i_sites = None]: the attribute [sites] was never assigned. *)
Record ipeps : Type := mk_ipeps {
  i_sites : option (dict coord T);
  i_lX : Z;
  i_lY : Z;
  i_v2s : coord -> res coord
}.

(** truth value of a pattern argument ([if pattern:]) *)
Definition pat_truthy (p : option pattern) : option pattern :=
  match p with
  | Some (PatRows []) => None
  | Some (PatDict []) => None
  | _ => p
  end.

(** truth value of [sites] ([None] and the empty dict are falsy) *)
Definition sites_truthy (s : option (dict coord T)) : option (dict coord T) :=
  match s with Some [] => None | _ => s end.

(** [len(pattern[0]), len(pattern)], ipeps/ipeps.py:196; indexing a dictionary whose
    keys are coordinate tuples by the int 0 is a KeyError *)
Definition pattern_size (p : pattern) : res (Z * Z) :=
  match p with
  | PatRows [] => Err IndexError
  | PatRows (row0 :: rows) => Ok (Z.of_nat (length row0), Z.of_nat (length (row0 :: rows)))
  | PatDict _ => Err KeyError
  end.

(** ipeps/ipeps.py:195-208 *)
Definition init_size (sites : option (dict coord T)) (p : option pattern)
  (lX lY : option Z) : res (Z * Z) :=
  match pat_truthy p with
  | Some p' => pattern_size p'
  | None =>
    match sites_truthy sites, lX, lY with
    | Some s, None, _ | Some s, _, None =>
      min_x <- zmin_list (map fst (dkeys s)) ;;
      max_x <- zmax_list (map fst (dkeys s)) ;;
      min_y <- zmin_list (map snd (dkeys s)) ;;
      max_y <- zmax_list (map snd (dkeys s)) ;;
      Ok (max_x - min_x + 1, max_y - min_y + 1)
    | _, Some x, Some y =>
      if negb (x =? 0) && negb (y =? 0) then Ok (x, y) else Err PyException
    | _, _, _ => Err PyException
    end
  end.

(** ipeps/ipeps.py:228 [{_site2index[c]: c for c in sites.keys()}] *)
Definition mk_label2index (s2i : dict coord L) (s : dict coord T) : res (dict L coord) :=
  kvs <- mapM (fun c => l <- dget_exn s2i c ;; Ok (l, c)) (dkeys s) ;;
  Ok (dict_of kvs).

(** ipeps/ipeps.py:229-230 *)
Definition v2s_pattern (l2i : dict L coord) (s2i : dict coord L) (lX lY : Z)
  (c : coord) : res coord :=
  c' <- pbc lX lY c ;;
  l <- dget_exn s2i c' ;;
  dget_exn l2i l.

(** ipeps/ipeps.py:187-188: a single dtype and a single device *)
Definition uniform (s : dict coord T) : bool :=
  (Z.of_nat (length (nodup eq_dec (map dtype_of (dvals s)))) =? 1) &&
  (Z.of_nat (length (nodup eq_dec (map device_of (dvals s)))) =? 1).

(** [IPEPS.__init__], ipeps/ipeps.py:90-238 *)
Definition ipeps_init (sites : option (dict coord T)) (v2s : option (coord -> res coord))
  (p : option pattern) (lX lY : option Z) : res ipeps :=
  my_sites <- match sites_truthy sites with
              | None => Ok None
              | Some s => _ <- py_assert (uniform s) ;; Ok (Some s)
              end ;;
  '(x, y) <- init_size sites p lX lY ;;
  match v2s with
  | Some f => Ok (mk_ipeps my_sites x y f)
  | None =>
    match pat_truthy p with
    | Some p' =>
      '(_, s2i) <- from_pattern p' ;;
      match sites_truthy sites with
      | Some s =>
          l2i <- mk_label2index s2i s ;;
          Ok (mk_ipeps my_sites x y (v2s_pattern l2i s2i x y))
      | None => Err PyException
      end
    | None => Ok (mk_ipeps my_sites x y (pbc x y))
    end
  end.

(** [IPEPS.site], ipeps/ipeps.py:240-247 *)
Definition ipeps_site (st : ipeps) (c : coord) : res T :=
  match i_sites st with
  | None => Err AttributeError
  | Some s => k <- i_v2s st c ;; dget_exn s k
  end.

End Lattice.
Arguments pattern L : clear implicits.
Arguments ipeps T : clear implicits.
