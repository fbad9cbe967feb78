(** Model of one directional CTM move and of the CTMRG driver.
    Files modelled: ctm/generic/ctmrg.py, the tensor selection of
    ctm/generic/ctm_components.py and ctm/generic/ctm_projectors.py.

    The multilinear algebra (contractions, SVD) is a parameter of the section: the model
    records which tensors of which sites enter which contraction. *)
From Verif Require Import Base Lattice.
Open Scope Z_scope.
Open Scope res_scope.
Open Scope list_scope.

(** the four accepted values of [direction], ctm/generic/ctmrg.py:182 *)
Inductive dirn := UP | LEFT | DOWN | RIGHT.
Definition dir_of (d : coord) : option dirn :=
  if eq_dec d (0, -1) then Some UP else if eq_dec d (-1, 0) then Some LEFT
  else if eq_dec d (0, 1) then Some DOWN else if eq_dec d (1, 0) then Some RIGHT else None.

(** [projector_method]; anything else raises ValueError, ctm/generic/ctmrg.py:199-204 *)
Inductive pmethod := M4X4 | M4X2 | Mother.

Section Move.
Variable X : Type.            (* torch tensors: corners, half-rows, on-site *)
Variable Pj : Type.           (* projectors *)

(** attributes [C] and [T] of ENV: dictionaries keyed by (site, relative vector),
    ctm/generic/env.py:88-110 *)
Record envt := mkE { eC : dict (coord * coord) X; eT : dict (coord * coord) X }.

(** contraction + SVD producing (P, Pt) from the 16 tensors of the 4x4 network
    (halves_of_4x4_CTM_MOVE_*_c and ctm_get_projectors_from_matrices; chi and the
    configuration are fixed during a move) or from the 8 tensors of the 4x2 network.
    They may raise. *)
Variable proj44 : dirn -> list X -> res (Pj * Pj).
Variable proj42 : dirn -> list X -> res (Pj * Pj).
(** the three outputs of absorb_truncate_CTM_MOVE_*_c (ctm/generic/ctmrg.py:343-438,
    459-564, 585-680, 701-800) with the arguments each output depends on; the reshaping of
    projectors before the call is part of these functions *)
Variable fC1 : dirn -> X -> X -> Pj -> X.            (* C1, T1, Pt1 *)
Variable fC2 : dirn -> X -> X -> Pj -> X.            (* C2, T2, P2 *)
Variable fT : dirn -> X -> X -> Pj -> Pj -> X.       (* T, A, Pt2, P1 *)
(** move_normalize_c, ctm/generic/ctmrg.py:210-230 *)
Variable normalize : X -> X.

Definition getC (e : envt) (k : coord) (v : coord) : res X := dget_exn (eC e) (k, v).
Definition getT (e : envt) (k : coord) (v : coord) : res X := dget_exn (eT e) (k, v).

(** [c2x2_LU_t], ctm/generic/ctm_components.py:314-319, and the three other corners,
    480-485, 632-637, 779-784 *)
Definition c2x2_t (cv t1 t2 : coord) (st : ipeps X) (e : envt) (c : coord) : res (list X) :=
  k <- i_v2s st c ;;
  x <- getC e k cv ;; y <- getT e k t1 ;; z <- getT e k t2 ;; a <- ipeps_site st c ;;
  Ok [x; y; z; a].
Definition c2x2_LU_t := c2x2_t (-1, -1) (0, -1) (-1, 0).
Definition c2x2_RU_t := c2x2_t (1, -1) (1, 0) (0, -1).
Definition c2x2_RD_t := c2x2_t (1, 1) (0, 1) (1, 0).
Definition c2x2_LD_t := c2x2_t (-1, 1) (-1, 0) (0, 1).

(** tuple concatenation *)
Definition app2 (m1 m2 : res (list X)) : res (list X) := a <- m1 ;; b <- m2 ;; Ok (a ++ b).

(** tensors gathered by halves_of_4x4_CTM_MOVE_*, ctm/generic/ctm_components.py:36-38,
    104-106, 167-169, 230-232, selected by direction in ctm_get_projectors_4x4,
    ctm/generic/ctm_projectors.py:50-61 *)
Definition tensors44 (d : dirn) (st : ipeps X) (e : envt) (c : coord) : res (list X) :=
  let (x, y) := c in
  match d with
  | UP => app2 (app2 (app2 (c2x2_RU_t st e (x, y)) (c2x2_RD_t st e (x, y + 1)))
                 (c2x2_LU_t st e (x - 1, y))) (c2x2_LD_t st e (x - 1, y + 1))
  | LEFT => app2 (app2 (app2 (c2x2_LU_t st e (x, y)) (c2x2_RU_t st e (x + 1, y)))
                 (c2x2_LD_t st e (x, y + 1))) (c2x2_RD_t st e (x + 1, y + 1))
  | DOWN => app2 (app2 (app2 (c2x2_LD_t st e (x, y)) (c2x2_LU_t st e (x, y - 1)))
                 (c2x2_RD_t st e (x + 1, y))) (c2x2_RU_t st e (x + 1, y - 1))
  | RIGHT => app2 (app2 (app2 (c2x2_RD_t st e (x, y)) (c2x2_LD_t st e (x - 1, y)))
                 (c2x2_RU_t st e (x, y - 1))) (c2x2_LU_t st e (x - 1, y - 1))
  end.

(** tensors gathered by ctm_get_projectors_4x2, ctm/generic/ctm_projectors.py:114-132
    (the transpositions of R, Rt are part of [proj42]) *)
Definition tensors42 (d : dirn) (st : ipeps X) (e : envt) (c : coord) : res (list X) :=
  let (x, y) := c in
  match d with
  | UP => app2 (c2x2_RU_t st e (x, y)) (c2x2_LU_t st e (x - 1, y))
  | LEFT => app2 (c2x2_LU_t st e (x, y)) (c2x2_LD_t st e (x, y + 1))
  | DOWN => app2 (c2x2_LD_t st e (x, y)) (c2x2_RD_t st e (x + 1, y))
  | RIGHT => app2 (c2x2_RD_t st e (x, y)) (c2x2_RU_t st e (x, y - 1))
  end.

Definition get_projectors (m : pmethod) (d : dirn) (st : ipeps X) (e : envt) (c : coord)
  : res (Pj * Pj) :=
  match m with
  | M4X4 => l <- tensors44 d st e c ;; proj44 d l
  | M4X2 => l <- tensors42 d st e c ;; proj42 d l
  | Mother => Err ValueError
  end.

(** the loop building the dictionaries P and Pt, ctm/generic/ctmrg.py:246-257 *)
Definition projector_loop (m : pmethod) (d : dirn) (st : ipeps X) (e : envt) (keys : list coord)
  : res (dict coord Pj * dict coord Pj) :=
  foldM (fun acc c => '(p, pt) <- get_projectors m d st e c ;;
                      Ok (dset (fst acc) c p, dset (snd acc) c pt)) keys ([], []).

(** absorb_truncate_CTM_MOVE_UP/LEFT/DOWN/RIGHT, ctm/generic/ctmrg.py:324-341, 440-457,
    566-583, 682-699.  [sh2] is the neighbour whose bond dimension is only used for a
    reshape: it is looked up, its tensor is not used otherwise. *)
Definition absorb_with (c1 t1 t t2 c2 sh1 sh2 : coord) (d : dirn) (st : ipeps X) (e : envt)
  (P Pt : dict coord Pj) (c : coord) : res (X * X * X) :=
  k2 <- i_v2s st (cadd c sh2) ;;
  k1 <- i_v2s st (cadd c sh1) ;;
  vC1 <- getC e c c1 ;; vT1 <- getT e c t1 ;; vT <- getT e c t ;; vT2 <- getT e c t2 ;;
  vC2 <- getC e c c2 ;; vA <- ipeps_site st c ;;
  p2 <- dget_exn P c ;; _ <- ipeps_site st k2 ;;
  pt2 <- dget_exn Pt c ;;
  p1 <- dget_exn P k1 ;;
  pt1 <- dget_exn Pt k1 ;; _ <- ipeps_site st k1 ;;
  Ok (fC1 d vC1 vT1 pt1, fC2 d vC2 vT2 p2, fT d vT vA pt2 p1).
Definition absorb_truncate (d : dirn) :=
  match d with
  | UP    => absorb_with (1, -1) (1, 0) (0, -1) (-1, 0) (-1, -1) (1, 0) (-1, 0) UP
  | LEFT  => absorb_with (-1, -1) (0, -1) (-1, 0) (0, 1) (-1, 1) (0, -1) (0, 1) LEFT
  | DOWN  => absorb_with (-1, 1) (-1, 0) (0, 1) (1, 0) (1, 1) (-1, 0) (1, 0) DOWN
  | RIGHT => absorb_with (1, 1) (0, 1) (1, 0) (0, -1) (1, -1) (0, 1) (0, -1) RIGHT
  end.

(** the loop building nC1, nC2, nT, ctm/generic/ctmrg.py:259-275 *)
Definition absorb_loop (d : dirn) (st : ipeps X) (e : envt) (P Pt : dict coord Pj)
  (keys : list coord) : res (dict coord X * dict coord X * dict coord X) :=
  foldM (fun acc c =>
           '(n1, n2, nt) <- absorb_truncate d st e P Pt c ;;
           let '(d1, d2, dt) := acc in
           Ok (dset d1 c (normalize n1), dset d2 c (normalize n2), dset dt c (normalize nt)))
        keys ([], [], []).

(** ctm_MOVE_c: flat list of new tensors, ctm/generic/ctmrg.py:233-283.  The local copies of
    state and environment hold the same tensors (offloading to another device and
    checkpointing do not change values). *)
Definition move_core (m : pmethod) (d : dirn) (st : ipeps X) (e : envt) (keys : list coord)
  : res (list X) :=
  '(P, Pt) <- projector_loop m d st e keys ;;
  '(d1, d2, dt) <- absorb_loop d st e P Pt keys ;;
  Ok (dvals d1 ++ dvals d2 ++ dvals dt).

(** relative vectors of the new tensors, ctm/generic/ctmrg.py:299-311 *)
Definition rel_vecs (d : dirn) : coord * coord * coord :=
  match d with
  | UP => ((1, -1), (-1, -1), (0, -1))
  | LEFT => ((-1, -1), (-1, 1), (-1, 0))
  | DOWN => ((-1, 1), (1, 1), (0, 1))
  | RIGHT => ((1, 1), (1, -1), (1, 0))
  end.

(** assignment loop, ctm/generic/ctmrg.py:313-319 *)
Definition assign_loop (d : dirn) (dv : coord) (st : ipeps X) (n1 n2 nt : dict coord X)
  (keys : list coord) (e : envt) : res envt :=
  let '(r1, r2, rt) := rel_vecs d in
  foldM (fun e c =>
           k <- i_v2s st (fst c - fst dv, snd c - snd dv) ;;
           x1 <- dget_exn n1 c ;; x2 <- dget_exn n2 c ;; xt <- dget_exn nt c ;;
           Ok (mkE (dset (dset (eC e) (k, r1) x1) (k, r2) x2) (dset (eT e) (k, rt) xt)))
        keys e.

(** [ctm_MOVE], ctm/generic/ctmrg.py:179-319.  Simplification: the case of a state without
    attribute [sites] is an AttributeError. *)
Definition ctm_move (m : pmethod) (dv : coord) (st : ipeps X) (e : envt) : res envt :=
  match m, i_sites st with
  | Mother, _ => Err ValueError
  | _, None => Err AttributeError
  | _, Some sites =>
    match dir_of dv with
    | None => Err ValueError
    | Some d =>
      let keys := dkeys sites in
      let n := length keys in
      new <- move_core m d st e keys ;;
      let n1 := dict_of (combine keys (firstn n new)) in
      let n2 := dict_of (combine keys (firstn n (skipn n new))) in
      let nt := dict_of (combine keys (skipn (2 * n) new)) in
      assign_loop d dv st n1 n2 nt keys e
    end
  end.

(** ** the driver *)
(** [_ctmrg_iter], ctm/generic/ctmrg.py:63-69 *)
Definition ctmrg_iter (m : pmethod) (seq_ : list coord) (st : ipeps X) (e : envt) : res envt :=
  foldM (fun e dv =>
           let k := if existsb (eqb dv) [(-1, 0); (1, 0)] then i_lX st else i_lY st in
           foldM (fun e _ => ctm_move m dv st e) (zrange k) e)
        seq_ e.
End Move.
Arguments mkE {X}. Arguments eC {X}. Arguments eT {X}. 

(** [run] after the construction of the (double-layer) state, ctm/generic/ctmrg.py:71-110,
    over an abstract iteration [iter] (argument: iteration number) and an abstract
    convergence check with its own history. *)
Section Run.
Variables E H : Type.
Variable iter_warm : Z -> E -> res E.       (* with the warm-up SVD method *)
Variable iter : Z -> E -> res E.

(** outcome: environment, history, number of main iterations performed, converged? *)
Fixpoint main_loop (check : option (E -> option H -> res (bool * H))) (is : list Z) (e : E)
  (h : option H) (done : nat) : res (E * option H * nat * bool) :=
  match is with
  | [] => Ok (e, h, done, false)
  | i :: is' =>
    e' <- iter i e ;;
    match check with
    | None => main_loop check is' e' h (S done)
    | Some f =>
      '(b, h') <- f e' h ;;
      if b then Ok (e', Some h', S done, true) else main_loop check is' e' (Some h') (S done)
    end
  end.

(** number of warm-up iterations, ctm/generic/ctmrg.py:76-81; [ceil(chi/maxD**2)] on
    positive ints; ZeroDivisionError for maxD = 0 *)
Definition ceil_div (a b : Z) : Z := - ((- a) / b).
Definition warmup_count (warmup chi maxD : Z) : res Z :=
  if warmup <? 0 then Ok 0
  else if maxD ^ 2 =? 0 then Err ZeroDivisionError
  else Ok (Z.max warmup (ceil_div chi (maxD ^ 2))).

(** UnboundLocalError: the log message after an empty warm-up loop uses [i],
    ctm/generic/ctmrg.py:86 *)
Definition ctmrg_run (warmup chi maxD max_iter : Z)
  (check : option (E -> option H -> res (bool * H))) (e : E)
  : res (E * option H * nat * bool) :=
  w <- warmup_count warmup chi maxD ;;
  e <- foldM (fun e i => iter_warm i e) (zrange w) e ;;
  if (0 <=? warmup) && (w <=? 0) then Err UnboundLocalError else
  main_loop check (zrange max_iter) e None 0.
End Run.

