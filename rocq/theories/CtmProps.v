(** Properties C13, C14, C15, C16, C51: CTM moves and the CTMRG driver. *)
From Verif Require Import Base BaseLemmas Lattice LatticeSpec Tilings StateIOSpec Ctm CtmSpec CtmProofs CtmProofs2 CtmExamples.
Open Scope Z_scope.

Section Props.
Variables X Pj : Type.
Variables (proj44 proj42 : dirn -> list X -> res (Pj * Pj)).
Variables (fC1 fC2 : dirn -> X -> X -> Pj -> X) (fT : dirn -> X -> X -> Pj -> Pj -> X).
Variable normalize : X -> X.
Variable x0 : X.
Notation move := (ctm_move X Pj proj44 proj42 fC1 fC2 fT normalize).
Notation iter := (ctmrg_iter X Pj proj44 proj42 fC1 fC2 fT normalize).

(** C13: at every lattice vertex the move replaces the two corners and the edge facing the
    direction by contractions of tensors of the environment before the move, with the
    projector pairs of the two adjacent bonds; nothing else is changed *)
Theorem C13_move_is_local_update : forall m d dv st sites f e e',
  is_state X st sites f -> complete X sites e -> dir_of dv = Some d ->
  move m dv st e = Ok e' ->
  exists proj,
   (forall v, proj_spec X Pj proj44 proj42 m d (fields_of X x0 f sites e) dv v = Ok (proj v)) /\
   moved (fun a b p => normalize (fC1 d a b p)) (fun a b p => normalize (fC2 d a b p))
         (fun a b p q => normalize (fT d a b p q))
         (fields_of X x0 f sites e) (fields_of X x0 f sites e') proj dv /\
   complete X sites e' /\
   (forall k c, ~ In k (dkeys sites) -> dget (eC e') (k, c) = dget (eC e) (k, c) /\ dget (eT e') (k, c) = dget (eT e) (k, c)) /\
   (forall k c, c <> cadd dv (rotR dv) -> c <> cadd dv (rotL dv) -> dget (eC e') (k, c) = dget (eC e) (k, c)) /\
   (forall k t, t <> dv -> dget (eT e') (k, t) = dget (eT e) (k, t)).
Proof. exact (move_local X Pj proj44 proj42 fC1 fC2 fT normalize x0). Qed.

(** the move fails only if a decomposition fails, an invalid direction or method is given *)
Theorem C13_move_succeeds_iff : forall m d dv st sites f e,
  is_state X st sites f -> complete X sites e -> dir_of dv = Some d -> m <> Mother ->
  ((exists e', move m dv st e = Ok e') <->
   (forall v, succeeds (proj_spec X Pj proj44 proj42 m d (fields_of X x0 f sites e) dv v))).
Proof. exact (move_succeeds X Pj proj44 proj42 fC1 fC2 fT normalize x0). Qed.

Theorem C13_invalid_direction : forall m dv st e,
  dir_of dv = None -> i_sites st <> None -> move m dv st e = Err ValueError.
Proof. exact (move_invalid_dir X Pj proj44 proj42 fC1 fC2 fT normalize). Qed.

(** every state with a regular cell (C10) meets the hypothesis [is_state] *)
Theorem C13_regular_states : forall (st : ipeps X) sites, regular st sites -> exists f, is_state X st sites f.
Proof. exact (@regular_is_state X). Qed.

(** C14 *)
Theorem C14_site_order_irrelevant : forall m dv st1 st2 sites1 sites2 f e1 e2 e1',
  is_state X st1 sites1 f -> complete X sites1 e1 ->
  i_sites st2 = Some sites2 -> (forall v, i_v2s st2 v = i_v2s st1 v) -> Permutation sites1 sites2 ->
  same_map (eC e1) (eC e2) -> same_map (eT e1) (eT e2) ->
  move m dv st1 e1 = Ok e1' ->
  exists e2', move m dv st2 e2 = Ok e2' /\ same_map (eC e1') (eC e2') /\ same_map (eT e1') (eT e2').
Proof. exact (move_order X Pj proj44 proj42 fC1 fC2 fT normalize x0). Qed.

(** C51: two descriptions of the same infinite lattice of tensors - by different unit cells,
    different representatives, or displaced by w - give the same lattice after the move *)
Theorem C51_move_depends_on_lattice_only : forall w m dv st1 sites1 f1 e1 e1' st2 sites2 f2 e2,
  is_state X st1 sites1 f1 -> complete X sites1 e1 ->
  is_state X st2 sites2 f2 -> complete X sites2 e2 ->
  translated w (fields_of X x0 f1 sites1 e1) (fields_of X x0 f2 sites2 e2) ->
  move m dv st1 e1 = Ok e1' ->
  exists e2', move m dv st2 e2 = Ok e2' /\ complete X sites1 e1' /\ complete X sites2 e2' /\
    translated w (fields_of X x0 f1 sites1 e1') (fields_of X x0 f2 sites2 e2').
Proof. exact (move_covariant X Pj proj44 proj42 fC1 fC2 fT normalize x0). Qed.

(** C15: one iteration is the documented sequence of moves *)
Theorem C15_iteration_schedule : forall m dirs st e, (forall d, In d dirs -> In d edge_dirs) ->
  iter m dirs st e = foldM (fun e d => move m d st e)
    (flat_map (fun d => repeat d (Z.to_nat (if snd d =? 0 then i_lX st else i_lY st))) dirs) e.
Proof. exact (iter_schedule X Pj proj44 proj42 fC1 fC2 fT normalize). Qed.

(** any schedule of moves succeeds when the decompositions do *)
Theorem C15_moves_never_fail : forall m dirs st sites f e,
  is_state X st sites f -> complete X sites e -> m <> Mother ->
  (forall d, In d dirs -> In d edge_dirs) ->
  (forall d l, succeeds (proj44 d l)) -> (forall d l, succeeds (proj42 d l)) ->
  exists e', foldM (fun e d => move m d st e) dirs e = Ok e' /\ complete X sites e'.
Proof. exact (moves_total X Pj proj44 proj42 fC1 fC2 fT normalize x0). Qed.
End Props.
Print Assumptions C13_move_is_local_update.
Print Assumptions C13_move_succeeds_iff.
Print Assumptions C13_invalid_direction.
Print Assumptions C13_regular_states.
Print Assumptions C14_site_order_irrelevant.
Print Assumptions C51_move_depends_on_lattice_only.
Print Assumptions C15_iteration_schedule.
Print Assumptions C15_moves_never_fail.

(** C15: the loop around the iterations; [run_of] lists all intermediate environments and
    histories; the check is called once per iteration on the new environment and the run
    ends at the first check answering true, or after ctm_max_iter iterations *)
Theorem C15_run_stops : forall E H iter_warm iter warmup chi maxD max_iter check e e' h' n conv,
  ctmrg_run E H iter_warm iter warmup chi maxD max_iter check e = Ok (e', h', n, conv) ->
  exists w e0 es hs,
    warmup_count warmup chi maxD = Ok w /\
    foldM (fun e i => iter_warm i e) (zrange w) e = Ok e0 /\
    run_of E H iter check 0 n e0 None e' h' conv es hs /\
    (n <= Z.to_nat max_iter)%nat /\ (conv = false -> n = Z.to_nat max_iter).
Proof. exact ctmrg_run_spec. Qed.
Print Assumptions C15_run_stops.

(** it raises no exception of its own *)
Theorem C15_run_total : forall E H iter_warm iter warmup chi maxD max_iter check e, 0 < chi -> 0 < maxD ->
  (forall i e, succeeds (iter_warm i e)) -> (forall i e, succeeds (iter i e)) ->
  (forall f e h, check = Some f -> succeeds (f e h)) ->
  succeeds (ctmrg_run E H iter_warm iter warmup chi maxD max_iter check e).
Proof. exact ctmrg_run_total. Qed.
Print Assumptions C15_run_total.

(** C16: the documented bound "at most ctm_warmup_iter" fails *)
Theorem C16_warmup_bound_refuted : exists warmup chi maxD w,
  0 <= warmup /\ warmup_count warmup chi maxD = Ok w /\ warmup < w.
Proof. exists 2, 64, 2, 16. repeat split; vm_compute; congruence. Qed.
Print Assumptions C16_warmup_bound_refuted.

(** it is a lower bound instead; the count is at most the larger of it and ceil(chi/D^2) *)
Theorem C16_warmup_count : forall warmup chi maxD w, 0 <= warmup -> 0 < maxD ->
  warmup_count warmup chi maxD = Ok w ->
  warmup <= w /\ chi <= maxD ^ 2 * w /\ (w = warmup \/ maxD ^ 2 * (w - 1) < chi).
Proof.
  exact warmup_count_spec. Qed.
Print Assumptions C16_warmup_count.

(** examples: a bipartite state with symbolic tensors *)
Example C13_example : is_state xT x_st x_sites tiling_bipartite /\ complete xT x_sites x_env /\
  match x_move M4X2 (0, -1) x_st x_env with
  | Ok e' => dget (eT e') ((1, 0), (0, -1)) =
      Some ["T1A"; "A"; "Pt"; "("; "C2A"; "T2A"; "T1A"; "A"; "C1B"; "T1B"; "T4B"; "B"; ")";
            "P"; "("; "C2B"; "T2B"; "T1B"; "B"; "C1A"; "T1A"; "T4A"; "A"; ")"]%string /\
      dget (eT e') ((0, 0), (1, 0)) = Some ["T2A"]%string
  | _ => False
  end.
Proof. split; [exact x_state|split; [exact x_complete|]]. vm_compute. split; reflexivity. Qed.

Example C15_example :
  ctmrg_run nat nat (fun _ n => Ok (S n)) (fun _ n => Ok (n + 10)%nat) (-1) 8 2 50
    (Some (fun e h => Ok (Nat.leb 25 e, S (match h with Some k => k | None => 0 end)%nat))) 0%nat
  = Ok (30%nat, Some 3%nat, 3%nat, true).
Proof. vm_compute. reflexivity. Qed.
