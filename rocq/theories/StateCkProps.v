(** C41: states come back from checkpoint files. *)
From Coq Require Import String List ZArith Bool.
From Verif Require Import Base StateCk StateCkSpec StateCkProofs StateCkProofs2 StateCkProofs3 StateCkExamples.
Import ListNotations.
Open Scope list_scope.

(** IPEPS, IPEPS_C4V, IPEPS_KAGOME *)
Theorem C41_ipeps {A : Type} (cplx : A -> bool) :
  restores_detached ipeps_made anywhere ipeps_parameters ipeps_checkpoint (ipeps_load cplx) i_sites.
Proof. exact (ipeps_restores cplx). Qed.
Print Assumptions C41_ipeps.

Example C41_ipeps_example :
  ipeps_made ex_ipeps /\
  ipeps_load v_cplx ex_ipeps0 (store_checkpoint 3 POther POther (ipeps_checkpoint ex_ipeps)) =
    Ok (mk_ipeps (PDict [(KCoord (0, 0)%Z, PT (re [1; 2]%Z false)); (KCoord (1, 0)%Z, PT (im [3; 4]%Z false))]) true).
Proof. exact (conj ex_ipeps_made eq_refl). Qed.

(** ... and the dtype of a state created as real follows the tensors of the file *)
Theorem C41_ipeps_dtype {A : Type} (cplx : A -> bool) st0 st e l o st' : ipeps_made st ->
  ipeps_load cplx st0 (store_checkpoint e l o (ipeps_checkpoint st)) = Ok st' ->
  i_complex st0 = false -> dtype_agrees cplx (i_complex st') (i_sites st').
Proof. exact (ipeps_dtype cplx st0 st e l o st'). Qed.
Print Assumptions C41_ipeps_dtype.

(** a state created as complex keeps its dtype when it loads real tensors *)
Theorem C41_dtype_refuted :
  let real := mk_ipeps (PDict [(KCoord (0, 0)%Z, PT (re [7]%Z false))]) false in
  exists st', ipeps_made real /\
    ipeps_load v_cplx ex_ipeps (store_checkpoint 1 POther POther (ipeps_checkpoint real)) = Ok st' /\
    i_complex st' = true /\ ~ dtype_agrees v_cplx (i_complex st') (i_sites st').
Proof. exact ex_dtype_ipeps. Qed.
Print Assumptions C41_dtype_refuted.

Theorem C41_1s_q {A : Type} (cplx : A -> bool) :
  restores_detached q_made anywhere q_parameters q_checkpoint (q_load cplx) q_sites.
Proof. exact (q_restores cplx). Qed.
Print Assumptions C41_1s_q.

Example C41_1s_q_example :
  q_made ex_q /\
  q_load v_cplx ex_q (store_checkpoint 3 POther POther (q_checkpoint ex_q)) =
    Ok (mk_q (PDict [(KCoord (0, 0)%Z, PT (re [1; 2]%Z false))]) (PT (re [5; 6]%Z false)) false).
Proof. exact (conj ex_q_made eq_refl). Qed.

Theorem C41_d2 {A : Type} (cplx : A -> bool) (flip : A -> A) :
  restores_detached (d2_made cplx flip) anywhere d2_parameters d2_checkpoint (d2_load flip) d_sites.
Proof. exact (d2_restores cplx flip). Qed.
Print Assumptions C41_d2.

(** IPEPS_D2SYM does not set the dtype *)
Theorem C41_d2_dtype_refuted :
  exists st0 st st', d2_made v_cplx v_flip st0 /\ d2_made v_cplx v_flip st /\
    d2_load v_flip st0 (store_checkpoint 1 POther POther (d2_checkpoint st)) = Ok st' /\
    d_complex st' = false /\ ~ dtype_agrees v_cplx (d_complex st') (d_sites st').
Proof. exact ex_dtype_d2. Qed.
Print Assumptions C41_d2_dtype_refuted.

Theorem C41_lc_1site_pg {A : Type} (numel : A -> Z) (lincomb : list (bool * A) -> A -> res A) :
  restores_detached (lc_made numel lincomb) anywhere lc_parameters lc_checkpoint
    (lc_load numel lincomb) l_sites.
Proof. exact (lc_restores numel lincomb). Qed.
Print Assumptions C41_lc_1site_pg.

Example C41_lc_example :
  lc_made v_numel v_lincomb ex_lc /\
  lc_load v_numel v_lincomb ex_lc1 (store_checkpoint 3 POther POther (lc_checkpoint ex_lc)) =
    Ok (mk_lc ex_elem (PDict [(KCoord (0, 0)%Z, PT (re [5; 7; 11]%Z false))])
          ["A_2"%string; "A_1"%string; "A_1"%string]
          (PDict [(KCoord (0, 0)%Z, PT (mkt (true, [18; 12]%Z) false))])).
Proof. exact (conj ex_lc_made eq_refl). Qed.

(** one coefficient for several tensors is accepted by the constructor, not when loading *)
Theorem C41_lc_single_refuted :
  lc_new v_lincomb ex_elem (PDict [(KCoord (0, 0)%Z, PT (re [2]%Z false))]) = Ok ex_lc1 /\
  forall st0, lc_load v_numel v_lincomb st0 (store_checkpoint 3 POther POther (lc_checkpoint ex_lc1)) =
    Err AssertionError.
Proof. exact (conj eq_refl (fun _ => eq_refl)). Qed.
Print Assumptions C41_lc_single_refuted.

(** load_checkpoint_lc_1site_pg never returns a state *)
Theorem C41_lc_function_refuted {A : Type} (numel : A -> Z) (lincomb : list (bool * A) -> A -> res A) :
  (forall file st, lc_load_function (A:=A) numel file <> Ok st) /\
  (forall st e l o, lc_made numel lincomb st ->
     lc_load_function numel (store_checkpoint e l o (lc_checkpoint st)) = Err TypeError).
Proof. exact (conj (lc_function_never numel) (lc_function_fails numel lincomb)). Qed.
Print Assumptions C41_lc_function_refuted.

(** no state of IPEPS_LC_BP can be loaded *)
Theorem C41_lc_bp_refuted {A : Type} (lincomb : list (bool * A) -> A -> res A) (dress : A -> A -> res A) :
  never_restores (bp_made lincomb dress) anywhere lc_checkpoint (bp_load lincomb dress).
Proof. exact (bp_fails lincomb dress). Qed.
Print Assumptions C41_lc_bp_refuted.

Example C41_lc_bp_example :
  exists st, bp_new v_lincomb v_dress ex_bp_elem ex_bp_coeffs = Ok st /\
    bp_load v_lincomb v_dress st (store_checkpoint 3 POther POther (lc_checkpoint st)) = Err RuntimeError.
Proof. exact (ex_intro _ _ (conj eq_refl eq_refl)). Qed.

(** no state of the two classes for the triangular lattice can be loaded *)
Theorem C41_trgl_refuted {A : Type} (cplx : A -> bool) (trgl : A -> A -> res A) st0 st e l o :
  tri_load cplx trgl st0 (store_checkpoint e l o (tri_checkpoint st)) = Err KeyError.
Proof. exact (tri_fails cplx trgl st0 st e l o). Qed.
Print Assumptions C41_trgl_refuted.

Example C41_trgl_example :
  exists st, tri_new v_cplx v_trgl false (re [1]%Z true) (re [2]%Z true) = Ok st /\
    tri_load v_cplx v_trgl st (store_checkpoint 3 POther POther (tri_checkpoint st)) = Err KeyError /\
    exists st', tri_load v_cplx v_trgl st (tri_checkpoint st) = Ok st'.
Proof. exact (ex_intro _ _ (conj eq_refl (conj eq_refl (ex_intro _ _ eq_refl)))). Qed.

Theorem C41_kagome_generic {A : Type} (ipess : A -> A -> A -> A -> A -> res A) :
  restores_detached (kag_made ipess) anywhere kag_parameters kag_checkpoint (kag_load ipess) k_sites.
Proof. exact (kag_restores ipess). Qed.
Print Assumptions C41_kagome_generic.

Example C41_kagome_generic_example :
  kag_made v_ipess ex_kag /\
  kag_load v_ipess ex_kag (store_checkpoint 3 POther POther (kag_checkpoint ex_kag)) =
    Ok (mk_kag (PDict [(KCoord (0, 0)%Z, sub5 1 false); (KCoord (1, 0)%Z, sub5 10 false)])
          (PDict [(KCoord (0, 0)%Z, PT (mkt (false, [1; 5; 2; 4; 3]%Z) false));
                  (KCoord (1, 0)%Z, PT (mkt (false, [10; 14; 11; 13; 12]%Z) false))])).
Proof. exact (conj ex_kag_made eq_refl). Qed.

Theorem C41_kagome_pg {A : Type} (ipess : A -> A -> A -> A -> A -> res A) :
  restores_detached (kpg_made ipess) kpg_fits kpg_parameters kpg_checkpoint (kpg_load ipess) p_sites.
Proof. exact (kpg_restores ipess). Qed.
Print Assumptions C41_kagome_pg.

Example C41_kagome_pg_example :
  kpg_made v_ipess ex_kpg /\
  exists st', kpg_load v_ipess ex_kpg (store_checkpoint 3 POther POther (kpg_checkpoint ex_kpg)) = Ok st' /\
    p_elem st' = ex_kpg_elem false /\
    p_sites st' = PDict [(KCoord (0, 0)%Z, PT (mkt (false, [1; 2; 3; 2; 2]%Z) false))].
Proof. exact (conj ex_kpg_made (ex_intro _ _ (conj eq_refl (conj eq_refl eq_refl)))). Qed.

(** between states with different symmetry flags the parameters come back but not the state, or
    nothing does *)
Theorem C41_kagome_flags_refuted :
  (exists st', kpg_load v_ipess ex_kpg_same (store_checkpoint 1 POther POther (kpg_checkpoint ex_kpg)) = Ok st' /\
     same_parameters (kpg_parameters ex_kpg) (kpg_parameters st') /\
     ~ same_sites (p_sites ex_kpg) (p_sites st')) /\
  kpg_load v_ipess ex_kpg (store_checkpoint 1 POther POther (kpg_checkpoint ex_kpg_same)) = Err KeyError.
Proof. exact ex_flags. Qed.
Print Assumptions C41_kagome_flags_refuted.

(** no file of an older version with three bond tensors can be loaded *)
Theorem C41_kagome_legacy_refuted {A : Type} (ipess : A -> A -> A -> A -> A -> res A) st0 e l o
    (u b1 b2 b3 : pyv A) d :
  dmem d (KStr "BOND_S") = false ->
  kpg_load ipess st0 (store_checkpoint e l o
    (PDict ([(KStr "UP_T", u); (KStr "BOND_S1", b1); (KStr "BOND_S2", b2); (KStr "BOND_S3", b3)] ++ d)))
  = Err NameError.
Proof. exact (kpg_legacy_fails ipess st0 e l o u b1 b2 b3 d). Qed.
Print Assumptions C41_kagome_legacy_refuted.

(** IPESS_KAGOME_PG_LC: only with one trivalent tensor and one bond tensor.  Missing: the other
    states, which cannot be loaded (C41_kagome_pg_lc_refuted), and the flags of the parameters
    (C41_kagome_grad_refuted) *)
Theorem C41_kagome_pg_lc_partial {A : Type} (lincomb : list (bool * A) -> A -> res A)
    (ipess : A -> A -> A -> A -> A -> res A) :
  restores (fun st => klc_made lincomb ipess st /\ klc_equal st) klc_fits klc_parameters klc_checkpoint
    (klc_load lincomb ipess) c_sites.
Proof. exact (klc_restores ipess lincomb). Qed.
Print Assumptions C41_kagome_pg_lc_partial.

Example C41_kagome_pg_lc_example :
  klc_made v_lincomb v_ipess ex_klc /\ klc_equal ex_klc /\
  c_sites ex_klc = PDict [(KCoord (0, 0)%Z, PT (mkt (true, [3; 2; 5; 7; 3; 2; 5; 7; 5; 7]%Z) true))].
Proof. exact (conj ex_klc_made (conj (conj eq_refl eq_refl) eq_refl)). Qed.

Theorem C41_kagome_pg_lc_refuted {A : Type} (lincomb : list (bool * A) -> A -> res A)
    (ipess : A -> A -> A -> A -> A -> res A) :
  never_restores (fun st => ~ klc_equal st) klc_fits klc_checkpoint (klc_load lincomb ipess).
Proof. exact (klc_fails ipess lincomb). Qed.
Print Assumptions C41_kagome_pg_lc_refuted.

Example C41_kagome_pg_lc_refuted_example :
  klc_new v_lincomb v_ipess false true ex_pgs (ex_cb [2; 3]%Z) (ex_cbb [5; 7]%Z)
    (Some (ex_cb [4; 1]%Z)) None None = Ok ex_klc2 /\
  klc_load v_lincomb v_ipess ex_klc2 (store_checkpoint 1 POther POther (klc_checkpoint ex_klc2)) = Err TypeError.
Proof. exact (conj ex_klc2_new eq_refl). Qed.

Theorem C41_kagome_grad_refuted : exists st', klc_made v_lincomb v_ipess ex_klc /\ klc_equal ex_klc /\
  klc_load v_lincomb v_ipess ex_klc (store_checkpoint 1 POther POther (klc_checkpoint ex_klc)) = Ok st' /\
  ~ detached (klc_parameters st').
Proof. exact ex_grad. Qed.
Print Assumptions C41_kagome_grad_refuted.

(** create_from_checkpoint gives back the stored state, whatever the flags *)
Theorem C41_kagome_create {A : Type} (lincomb : list (bool * A) -> A -> res A)
    (ipess : A -> A -> A -> A -> A -> res A) ud bs pgs tu bc td ba bb st e l o :
  klc_new lincomb ipess ud bs pgs tu bc td ba bb = Ok st ->
  klc_create lincomb ipess ud bs pgs (store_checkpoint e l o (klc_checkpoint st)) = Ok st.
Proof. exact (klc_create_eq ipess lincomb ud bs pgs tu bc td ba bb st e l o). Qed.
Print Assumptions C41_kagome_create.
