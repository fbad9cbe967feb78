(** C43: C4v CTMRG keeps the environment symmetric. *)
From Verif Require Import Base Tensor Net NetSpec GaussQ Corners CornersSpec C4v CtmC4v CtmC4vSpec CtmC4vProofs CtmC4vProofs2 CtmC4vProofs3 CtmC4vProofs4 CtmC4vExamples.
Open Scope list_scope.
Open Scope nat_scope.
Open Scope res_scope.

Section Props.
Context {K : Type} (z o half : K) (add mul sub : K -> K -> K) (opp : K -> K) (div : K -> K -> K) (inv : K -> K)
  (cj vabs : K -> K) (is0 : K -> bool) (vnorm : bool -> list K -> K).
Hypothesis L : scalar_laws z o half add mul sub opp div inv cj vabs is0 vnorm.
Notation ten := (tensor K).
Notation isc D := (is_contraction D z o add mul).
Notation run decomp inf chi qr fpcm useQR fm conv := (run z o half add mul div cj vabs is0 vnorm decomp inf chi qr fpcm useQR fm conv).
Notation run_dl decomp inf chi fpcm fm conv := (run_dl z o half add mul div cj vabs is0 vnorm decomp inf chi fpcm fm conv).
Notation move_sl := (ctm_MOVE_sl z o half add mul div cj vabs is0 vnorm).
Notation move_qr := (ctm_MOVE_QR_sl z o half add mul div cj vabs is0 vnorm).

(** after at least one iteration, from any initial environment of the right dimensions, accelerated
    or not, the corner is hermitian and diagonal with a leading entry of magnitude one, and T is
    hermitian *)
Theorem C43_symmetric_env chi d D decomp inf qr fpcm useQR (fm : nat -> ten * ten -> res (ten * ten)) conv a k e e' :
  shaped [d; D; D; D; D] a -> shaped [chi; chi] (fst e) -> shaped [chi; chi; D * D] (snd e) ->
  (forall i, useQR i = false) ->
  (forall i e e', fm i e = Ok e' -> shaped [chi; chi] (fst e) -> shaped [chi; chi; D * D] (snd e) ->
     shaped [chi; chi] (fst e') /\ shaped [chi; chi; D * D] (snd e')) ->
  (forall M l P, decomp M chi = Ok (l, P) -> real_values cj chi l) ->
  run decomp inf chi qr fpcm useQR fm conv a (S k) e = Ok e' ->
  symmetric_env z cj chi D e' /\ diagonal z chi (fst e') /\ vabs (entry z (fst e') [0; 0]) = o.
Proof. intros Ha HC HT HQ HK HD H.
  exact (its_sym z o half add mul sub opp div inv cj vabs is0 vnorm L chi d D qr inf fpcm useQR fm conv HQ decomp a Ha HK HD (seq 0 (S k)) e e' HC HT H ltac:(discriminate)). Qed.

(** the run that builds the double-layer tensor returns the same environment *)
Theorem C43_double_layer chi d D decomp inf qr fpcm useQR (fm : nat -> ten * ten -> res (ten * ten)) conv a k e e' :
  shaped [d; D; D; D; D] a -> shaped [chi; chi] (fst e) -> shaped [chi; chi; D * D] (snd e) ->
  (forall i, useQR i = false) ->
  (forall i e e', fm i e = Ok e' -> shaped [chi; chi] (fst e) -> shaped [chi; chi; D * D] (snd e) ->
     shaped [chi; chi] (fst e') /\ shaped [chi; chi; D * D] (snd e')) ->
  (forall M l P, decomp M chi = Ok (l, P) -> real_values cj chi l) ->
  run_dl decomp inf chi fpcm fm conv a k e = Ok e' <-> run decomp inf chi qr fpcm useQR fm conv a k e = Ok e'.
Proof. intros Ha HC HT HQ HK HD.
  exact (its_dl_sl z o half add mul sub opp div inv cj vabs is0 vnorm L chi d D qr inf fpcm useQR fm conv HQ decomp a Ha HK HD (seq 0 k) e HC HT e'). Qed.

(** both enlarged corners are the drawn network; it is hermitian for a symmetric site and environment *)
Theorem C43_corner chi d D C T a : shaped [chi; chi] C -> shaped [chi; chi; D * D] T -> shaped [d; D; D; D; D] a ->
  exists M, c2x2_sl z o add mul cj a C T = Ok M /\ (A <- double_layer z o add mul cj a ;; c2x2_dl z o add mul A C T) = Ok M /\
    isc (dims_corner chi d D) (net_corner cj C T a) out_corner M /\
    (symmetric_env z cj chi D (C, T) -> c4v_site z cj d D a -> hermitian z cj (chi * (D * D)) M).
Proof. intros HC HT Ha. destruct (corner_ok z o add mul cj (SRL z o half add mul sub opp div inv cj vabs is0 vnorm L) chi d D C T a HC HT Ha) as (M & E1 & E2 & HM).
  exists M. split; [exact E1|]. split; [exact E2|]. split; [exact HM|]. intros [H1 H2] H3.
  exact (corner_herm z o add mul cj (SRL z o half add mul sub opp div inv cj vabs is0 vnorm L) (cjz z o half add mul sub opp div inv cj vabs is0 vnorm L)
    (cjo z o half add mul sub opp div inv cj vabs is0 vnorm L) (sl_cj_add _ _ _ _ _ _ _ _ _ _ _ _ _ L) (sl_cj_mul _ _ _ _ _ _ _ _ _ _ _ _ _ L) (sl_cj_cj _ _ _ _ _ _ _ _ _ _ _ _ _ L) chi d D C T a M H1 H2 H3 HM). Qed.

(** a move from a symmetric environment is the drawn step, divided by the magnitude of the leading
    entry and by the norm: the symmetrization changes nothing *)
Theorem C43_step chi d D decomp inf a C T C' T' : c4v_site z cj d D a -> symmetric_env z cj chi D (C, T) ->
  (forall M l P, hermitian z cj (chi * (D * D)) M -> decomp M chi = Ok (l, P) ->
     real_values cj chi l /\ diagonalizes z cj o add mul (chi * (D * D)) chi M l P) ->
  move_sl decomp inf chi a (C, T) = Ok (C', T') ->
  exists P nC nT, isc (dims_corner chi d D) (net_new_corner cj C T a P) [V 13; V 14] nC /\
    isc (dims_row chi d D) (net_row cj T a P) out_row nT /\
    vabs (entry z nC [0; 0]) <> z /\ vnorm inf (tdata nT) <> z /\
    C' = tmap (fun x => div x (vabs (entry z nC [0; 0]))) nC /\ T' = tmap (fun x => div x (vnorm inf (tdata nT))) nT.
Proof. exact (step_sl z o half add mul sub opp div inv cj vabs is0 vnorm L chi d D decomp inf a C T C' T'). Qed.

(** from a symmetric environment only hermitian matrices are decomposed: the behaviour of the
    decomposition on other matrices is irrelevant *)
Theorem C43_only_hermitian chi d D decomp decomp' inf qr fpcm useQR (fm : nat -> ten * ten -> res (ten * ten)) conv a k e :
  c4v_site z cj d D a -> symmetric_env z cj chi D e -> (forall i, useQR i = false) -> (forall i, fpcm i = false) ->
  (forall M l P, decomp M chi = Ok (l, P) -> real_values cj chi l) ->
  (forall M, hermitian z cj (chi * (D * D)) M -> decomp M chi = decomp' M chi) ->
  run decomp inf chi qr fpcm useQR fm conv a k e = run decomp' inf chi qr fpcm useQR fm conv a k e.
Proof. intros Ha He HQ HF HD HE.
  exact (its_agree z o half add mul sub opp div inv cj vabs is0 vnorm L chi d D qr inf fpcm useQR fm conv HQ decomp decomp' a Ha HF HD HE (seq 0 k) e He). Qed.

(** the move with a QR decomposition keeps the symmetry over real numbers; T is hermitian in any case *)
Theorem C43_qr_real chi d D qr inf a e e' : (forall x, cj x = x) -> c4v_site z cj d D a -> symmetric_env z cj chi D e ->
  (forall h P, qr h = Ok P -> shaped [chi * (D * D); chi] P) ->
  move_qr inf chi qr a e = Ok e' -> symmetric_env z cj chi D e' /\ vabs (entry z (fst e') [0; 0]) = o.
Proof. exact (qr_real z o half add mul sub opp div inv cj vabs is0 vnorm L chi d D qr inf a e e'). Qed.
Theorem C43_qr_row chi d D qr inf a e e' : shaped [d; D; D; D; D] a -> shaped [chi; chi; D * D] (snd e) ->
  move_qr inf chi qr a e = Ok e' -> row_hermitian z cj chi (D * D) (snd e').
Proof. exact (qr_T z o half add mul sub opp div inv cj vabs is0 vnorm L chi d D qr inf a e e'). Qed.

(** a random corner is hermitian *)
Theorem C43_random_corner n rC rT : shaped [n; n] rC -> exists C, init_random z half add mul cj rC rT = Ok (C, rT) /\ hermitian z cj n C.
Proof. exact (init_random_ok z o half add mul sub opp div inv cj vabs is0 vnorm L n rC rT). Qed.
End Props.
Print Assumptions C43_symmetric_env.
Print Assumptions C43_double_layer.
Print Assumptions C43_corner.
Print Assumptions C43_step.
Print Assumptions C43_only_hermitian.
Print Assumptions C43_qr_real.
Print Assumptions C43_qr_row.
Print Assumptions C43_random_corner.

(** over complex numbers the move with a QR decomposition h = Q R, Q unitary and R upper triangular,
    turns a symmetric environment into one whose corner is not hermitian *)
Theorem C43_qr_refuted : exists qr Q R h a e C' T',
  c4v_site gq_z gq_cj 1 1 a /\ symmetric_env gq_z gq_cj 2 1 e /\
  (forall h' P, qr h' = Ok P -> h' = h /\ P = Q) /\
  tensordot gq_z gq_o gq_add gq_mul Q R [1] [0] = Ok h /\
  tensordot gq_z gq_o gq_add gq_mul (tmap gq_cj Q) Q [0] [0] = Ok (diag gq_z [gq_o; gq_o]) /\
  (forall i j, j < i < 2 -> entry gq_z R [i; j] = gq_z) /\
  ctm_MOVE_QR_sl gq_z gq_o ghalf gq_add gq_mul gq_div gq_cj gabs gis0 gnorm false 2 qr a e = Ok (C', T') /\
  entry gq_z C' [0; 1] <> gq_cj (entry gq_z C' [1; 0]).
Proof. exact qr_refuted. Qed.
Print Assumptions C43_qr_refuted.

(** a random initial environment is not symmetric, and a matrix that is not hermitian is decomposed *)
Theorem C43_random_init_refuted : exists a rC rT C T M, c4v_site gq_z gq_cj 1 1 a /\
  init_random gq_z ghalf gq_add gq_mul gq_cj rC rT = Ok (C, T) /\ c2x2_sl gq_z gq_o gq_add gq_mul gq_cj a C T = Ok M /\
  entry gq_z M [1;0] <> gq_cj (entry gq_z M [0;1]).
Proof. exact random_refuted. Qed.
Print Assumptions C43_random_init_refuted.

(** the hypotheses hold, and the step is not trivial *)
Example C43_laws : scalar_laws gq_z gq_o ghalf gq_add gq_mul gq_sub gq_opp gq_div gq_inv gq_cj gabs gis0 gnorm.
Proof. exact g_laws. Qed.
Example C43_step_case : c4v_site gq_z gq_cj 1 1 a1 /\ symmetric_env gq_z gq_cj 2 1 (C1, T1) /\
  c2x2_sl gq_z gq_o gq_add gq_mul gq_cj a1 C1 T1 = Ok M1 /\ real_values gq_cj 2 [gq_int 4 0; gq_int 1 0] /\
  diagonalizes gq_z gq_cj gq_o gq_add gq_mul 2 2 M1 [gq_int 4 0; gq_int 1 0] P1 /\
  gmove dec1 false 2 a1 (C1, T1) = Ok (C1', T1') /\ gmove_dl dec1 false 2 a1 (C1, T1) = Ok (C1', T1').
Proof. exact (Logic.conj ex_site (Logic.conj ex_env (Logic.conj ex_corner (Logic.conj ex_values (Logic.conj ex_diagonalizes (Logic.conj ex_move ex_move_dl)))))). Qed.
Example C43_complex_row : match gmove dec2 false 2 a1 (C1, T1) with Ok (C, T) => teqb C C1' && negb (gq_eqb (entry gq_z T [0;1;0]) (entry gq_z T [1;0;0])) | _ => false end = true.
Proof. exact ex_move2. Qed.
(** a complex site tensor A1 + i A2 *)
Example C43_complex_site : c4v_site gq_z gq_cj 1 3 a3 /\
  match c2x2_sl gq_z gq_o gq_add gq_mul gq_cj a3 C3 T3 with Ok M => gq_eqb (entry gq_z M [2;1]) (gq_int 1480 70) | _ => false end = true.
Proof. exact (Logic.conj ex_site3 ex_corner3). Qed.
