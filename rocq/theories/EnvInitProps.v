(** C75: starting environments *)
From Verif Require Import Base Lattice Tensor NetSpec CornersSpec EnvInit EnvInitSpec EnvInitProofs4 EnvInitProofs5 EnvInitExamples.
From Verif Require Ctm ExtendSpec CornersExamples.
From Coq Require Import Ring.
Open Scope list_scope.
Open Scope nat_scope.

(** ENV(chi, state): blank tensors of the dimensions of the state *)
Theorem C75_new {K} (empty : list nat -> tensor K) (Hempty : forall dims, tdims (empty dims) = dims) st sites chi : whole st sites (fun A => site5 A \/ site4 A) ->
  exists e, new_env empty st chi = Ok e /\
    Forall (fun kt : coord * coord * tensor K => tdims (snd kt) = [chi; chi]) (Ctm.eC e) /\
    (forall c d, In c (dkeys sites) -> In d corner_dirs -> Ctm.getC _ e c d = Ok (empty [chi; chi])) /\
    (whole st sites site5 -> NoDup (dkeys sites) -> forall c A d, In (c, A) sites -> In d edge_dirs -> exists t, Ctm.getT _ e c d = Ok t /\ tdims t = blank_dims chi d A) /\
    (whole st sites site4 -> NoDup (dkeys sites) -> forall c A d, In (c, A) sites -> In d edge_dirs -> exists t, Ctm.getT _ e c d = Ok t /\ tdims t = blank_dims1 chi d A).
Proof. exact (new_env_ok empty Hempty st sites chi). Qed.
Print Assumptions C75_new.
Example C75_new_case : exists e', new_env blank est 2 = Ok e' /\
  Ctm.getT _ e' (0, 0)%Z (-1, 0)%Z = Ok (blank [2; 2; 4]) /\ Ctm.getT _ e' (1, 0)%Z (-1, 0)%Z = Ok (blank [2; 2; 1]).
Proof. exact est_new. Qed.

(** CTMRG: the double-layer tensors of the neighbours, outward legs of ket and bra contracted *)
Theorem C75_ctmrg {K} (z o : K) add mul div cj is0 amax cv (Hcv : forall x, cv x = x) (SR : semi_ring_theory z o add mul eq) rnd st sites chi e :
  whole st sites site5 -> consistent st ->
  (forall v d A, In d (corner_dirs ++ edge_dirs) -> ipeps_site st (cadd v d) = Ok A -> nonzero z o add mul amax is0 Traced d A (tmap cj A)) ->
  exists e', init_env z o add mul div cj is0 amax cv rnd "CTMRG" st chi e = Ok e' /\
    built st (Ctm.getC _ e') corner_dirs (fun d A t => is_start z o add mul div amax Traced chi d A (tmap cj A) t) /\
    built st (Ctm.getT _ e') edge_dirs (fun d A t => is_start z o add mul div amax Traced chi d A (tmap cj A) t).
Proof. exact (init_ctmrg z o add mul div cj is0 amax cv Hcv SR rnd st sites chi e). Qed.
Print Assumptions C75_ctmrg.
Example C75_ctmrg_case : whole est esites site5 /\ consistent est /\
  (forall v d A, In d (corner_dirs ++ edge_dirs) -> ipeps_site est (cadd v d) = Ok A -> nonzero 0%Z 1%Z Z.add Z.mul maxabs zero Traced d A (tmap (fun x => x) A)) /\
  exists e', init_env 0%Z 1%Z Z.add Z.mul Z.div (fun x => x) zero maxabs (fun x => x) nornd "CTMRG" est 2 env0 = Ok e' /\
  Ctm.getT _ e' (0, 0)%Z (-1, 0)%Z = Ok (mkT [2; 2; 4] [1; -1; -1; 1; 0; 0; 0; 0; 0; 0; 0; 0; 0; 0; 0; 0]%Z) /\
  Ctm.getT _ e' (1, 0)%Z (-1, 0)%Z = Ok (mkT [2; 2; 1] [1; 0; 0; 0]%Z) /\
  Ctm.getC _ e' (0, 0)%Z (-1, -1)%Z = Ok (mkT [2; 2] [1; -1; 0; 0]%Z).
Proof. exact (conj est_whole (conj est_consistent (conj est_nonzero est_left))). Qed.

(** CTMRG_OBC: outward legs summed, the bra is the ket *)
Theorem C75_obc_partial {K} (z o : K) add mul div cj is0 amax cv (Hcv : forall x, cv x = x) (SR : semi_ring_theory z o add mul eq) rnd st sites chi e :
  whole st sites (fun A => site5 A \/ site4 A) -> consistent st ->
  (forall v d A, In d (corner_dirs ++ edge_dirs) -> ipeps_site st (cadd v d) = Ok A -> obc_ready z o add mul amax is0 d A) ->
  exists e', init_env z o add mul div cj is0 amax cv rnd "CTMRG_OBC" st chi e = Ok e' /\
    built st (Ctm.getC _ e') corner_dirs (obc_tensor z o add mul div amax chi) /\
    built st (Ctm.getT _ e') edge_dirs (obc_tensor z o add mul div amax chi).
Proof. exact (init_obc z o add mul div cj is0 amax cv Hcv SR rnd st sites chi e). Qed.
Print Assumptions C75_obc_partial.
(** of a complex state this is not the tensor of ket and bra *)
Theorem C75_obc_refuted : exists st sites e e', whole st sites site5 /\ consistent st /\ initG "CTMRG_OBC" st 1 e = Ok e' /\
  ~ built st (Ctm.getC _ e') corner_dirs (fun d A t => is_start CornersExamples.g0 CornersExamples.g1 CornersExamples.gadd CornersExamples.gmul gdiv gmax Summed 1 d A (tmap CornersExamples.gconj A) t).
Proof. exact (ex_intro _ (one_site im) (ex_intro _ _ (ex_intro _ gempty (ex_intro _ obc_out (conj (one_whole im site5 (conj eq_refl eq_refl)) (conj (one_consistent im) (conj (proj1 obc_out_ok) obc_not))))))). Qed.
Print Assumptions C75_obc_refuted.
Example C75_obc_case : Ctm.getC _ obc_out (0, 0)%Z (-1, -1)%Z = Ok (mkT [1; 1] [(-1, 0)%Z]).
Proof. exact (proj2 obc_out_ok). Qed.

(** PROD: one in the upper left of every corner; the vectors of the facing legs *)
Theorem C75_prod_partial {K} (z o : K) add mul div cj is0 amax cv (Hcv : forall x, cv x = x) (SR : semi_ring_theory z o add mul eq) empty (Hempty : forall dims, tdims (empty dims) = dims) rnd st sites chi e :
  0 < chi -> whole st sites (fun A => site5 A \/ site4 A) -> consistent st -> new_env empty st chi = Ok e ->
  (forall v d A, In d edge_dirs -> ipeps_site st (cadd v d) = Ok A -> prod_ready z o add mul amax is0 cj d A) ->
  exists e', init_env z o add mul div cj is0 amax cv rnd "PROD" st chi e = Ok e' /\
    built st (Ctm.getC _ e') corner_dirs (fun _ _ t => is_unit_corner z o chi t) /\
    built st (Ctm.getT _ e') edge_dirs (prod_tensor z o add mul div amax cj chi).
Proof. exact (init_product z o add mul div cj is0 amax cv Hcv SR empty Hempty rnd st sites chi e). Qed.
Print Assumptions C75_prod_partial.
(** the upper vector keeps the scale of the state *)
Theorem C75_prod_scale_refuted : exists st sites e e', whole st sites site5 /\ consistent st /\ new_env blank st 1 = Ok e /\
  init_env 0%Z 1%Z Z.add Z.mul Z.div (fun x => x) zero maxabs (fun x => x) nornd "PROD" st 1 e = Ok e' /\
  ~ built st (Ctm.getT _ e') edge_dirs (fun d A t => is_product 0%Z 1%Z Z.add Z.mul (unit_scale Z.div maxabs) 1 d A (tmap (fun x => x) A) t).
Proof. exact (match prod_up with ex_intro _ e (conj E (conj H _)) => ex_intro _ (one_site two) (ex_intro _ _ (ex_intro _ e (ex_intro _ prod_out (conj (one_whole two site5 (conj eq_refl eq_refl)) (conj (one_consistent two) (conj E (conj H prod_up_not))))))) end). Qed.
Print Assumptions C75_prod_scale_refuted.
Example C75_prod_case : exists e, new_env blank (one_site two) 1 = Ok e /\
  init_env 0%Z 1%Z Z.add Z.mul Z.div (fun x => x) zero maxabs (fun x => x) nornd "PROD" (one_site two) 1 e = Ok prod_out /\
  Ctm.getT _ prod_out (0, 0)%Z (0, -1)%Z = Ok (mkT [1; 1; 1] [4]%Z) /\
  Forall (fun d => Ctm.getT _ prod_out (0, 0)%Z d = Ok (mkT [1; 1; 1] [1]%Z)) [(-1, 0); (0, 1); (1, 0)]%Z.
Proof. exact prod_up. Qed.

(** init_prod_overlap: kets of the first state, bras of the second, all four vectors scaled *)
Theorem C75_overlap {K} (z o : K) add mul div cj is0 amax cv (Hcv : forall x, cv x = x) (SR : semi_ring_theory z o add mul eq) empty (Hempty : forall dims, tdims (empty dims) = dims) st1 st2 chi :
  0 < chi -> forall sites1 sites2 e, whole st1 sites1 site5 -> whole st2 sites2 site5 -> consistent st1 -> same_period st1 st2 -> same_dims st1 st2 ->
  new_env empty st1 chi = Ok e ->
  (forall v d A1 A2, In d edge_dirs -> ipeps_site st1 (cadd v d) = Ok A1 -> ipeps_site st2 (cadd v d) = Ok A2 -> overlap_nonzero z o add mul amax is0 cj d A1 A2) ->
  exists e', init_prod_overlap z o add mul div cj is0 amax cv st1 st2 chi e = Ok e' /\
    built st1 (Ctm.getC _ e') corner_dirs (fun _ _ t => is_unit_corner z o chi t) /\
    built_overlap st1 st2 (Ctm.getT _ e') edge_dirs (fun d A1 A2 t => is_product z o add mul (unit_scale div amax) chi d A1 (tmap cj A2) t).
Proof. exact (init_overlap z o add mul div cj is0 amax cv Hcv SR empty Hempty st1 st2 chi). Qed.
Print Assumptions C75_overlap.
Example C75_overlap_case : same_period est (one_site two) /\ exists e e', new_env blank (one_site two) 2 = Ok e /\
  init_prod_overlap 0%Z 1%Z Z.add Z.mul Z.div (fun x => x) zero maxabs (fun x => x) (one_site two) (one_site three) 2 e = Ok e' /\
  Ctm.getT _ e' (0, 0)%Z (0, -1)%Z = Ok (mkT [2; 1; 2] [1; 0; 0; 0]%Z) /\ Ctm.getC _ e' (0, 0)%Z (1, 1)%Z = Ok (mkT [2; 2] [1; 0; 0; 0]%Z).
Proof. exact overlap_case. Qed.

(** the other options *)
Theorem C75_single_layer {K} (z o : K) add mul div cj is0 amax cv rnd typ st sites chi e : whole st sites site4 -> ~ In typ ["PROD"; "CTMRG_OBC"; "RANDOM"]%string ->
  init_env z o add mul div cj is0 amax cv rnd typ st chi e = Err RuntimeError.
Proof. exact (init_rank4 z o add mul div cj is0 amax cv rnd typ st sites chi e). Qed.
Print Assumptions C75_single_layer.
(** the documented option CONST is none *)
Theorem C75_const_refuted {K} (z o : K) add mul div cj is0 amax cv rnd st sites chi e : whole st sites site5 ->
  init_env z o add mul div cj is0 amax cv rnd "CONST" st chi e = Err ValueError.
Proof. exact (init_const z o add mul div cj is0 amax cv rnd st sites chi e). Qed.
Print Assumptions C75_const_refuted.
Theorem C75_random {K} (z o : K) add mul div cj is0 amax cv rnd st sites chi e : whole st sites (fun _ => True) ->
  exists e', init_env z o add mul div cj is0 amax cv rnd "RANDOM" st chi e = Ok e' /\
    (forall c d t, Ctm.getC _ e c d = Ok t -> Ctm.getC _ e' c d = Ok (rnd (c, d) (tdims t))) /\
    (forall c d t, Ctm.getT _ e c d = Ok t -> Ctm.getT _ e' c d = Ok (rnd (c, d) (tdims t))).
Proof. exact (init_rnd z o add mul div cj is0 amax cv rnd st sites chi e). Qed.
Print Assumptions C75_random.

(** The C4v variant: open boundaries *)
Theorem C75_c4v_obc {K} (z o : K) add mul div cj is0 amax cv (Hcv : forall x, cv x = x) (SR : semi_ring_theory z o add mul eq) chi A : site5 A ->
  nonzero z o add mul amax is0 Summed (-1, -1)%Z A (tmap cj A) -> nonzero z o add mul amax is0 Summed (-1, 0)%Z A (tmap cj A) ->
  exists C T, c4v_init_obc z o add mul div cj is0 amax cv chi A = Ok (C, T) /\
    is_start z o add mul div amax Summed chi (-1, -1)%Z A (tmap cj A) C /\ is_start z o add mul div amax Summed chi (-1, 0)%Z A (tmap cj A) T.
Proof. exact (c4v_obc_ok z o add mul div cj is0 amax cv Hcv SR chi A). Qed.
Print Assumptions C75_c4v_obc.
Example C75_c4v_obc_case : c4v_init_obc CornersExamples.g0 CornersExamples.g1 CornersExamples.gadd CornersExamples.gmul gdiv CornersExamples.gconj gzero gmax (fun x => x) 1 im
  = Ok (mkT [1; 1] [CornersExamples.g1], mkT [1; 1; 1] [CornersExamples.g1]).
Proof. exact c4v_obc_im. Qed.
Theorem C75_c4v_obc_sl {K} (z o : K) add mul div is0 amax cv (Hcv : forall x, cv x = x) (SR : semi_ring_theory z o add mul eq) chi A : site4 A ->
  nonzero1 z o add mul amax is0 (-1, -1)%Z A -> nonzero1 z o add mul amax is0 (-1, 0)%Z A ->
  exists C T, c4v_init_obc_sl z o add mul div is0 amax cv chi A = Ok (C, T) /\
    is_start1 z o add mul div amax chi (-1, -1)%Z A C /\ is_start1 z o add mul div amax chi (-1, 0)%Z A T.
Proof. exact (c4v_obc_sl_ok z o add mul div is0 amax cv Hcv SR chi A). Qed.
Print Assumptions C75_c4v_obc_sl.
(** closed boundaries: the eigenvalues of the corner, and the half-row tensor between its eigenvectors *)
Theorem C75_c4v_pbc {K} (z o : K) add mul div sub cj is0 amax cv (Hcv : forall x, cv x = x) (SR : semi_ring_theory z o add mul eq) eig negligible chi A n w U : site5 A -> equal_legs A n ->
  nonzero z o add mul amax is0 Traced (-1, -1)%Z A (tmap cj A) -> nonzero z o add mul amax is0 Traced (-1, 0)%Z A (tmap cj A) ->
  (forall M, is_contraction (bd A) z o add mul (layers Traced (inward (-1, -1)%Z) A (tmap cj A)) (fused (inward (-1, -1)%Z)) M -> eig (unit_scale div amax M) (n * n) = Ok (w, U)) ->
  length w = n * n -> twf U -> tdims U = [n * n; n * n] ->
  ((exists x y, negligible x y = false) /\ c4v_init_pbc z o add mul div sub cj is0 amax cv eig negligible chi A = Err AssertionError) \/
  exists C T M N, c4v_init_pbc z o add mul div sub cj is0 amax cv eig negligible chi A = Ok (C, T) /\ (exists d, diagonal z w d /\ ExtendSpec.padded z d [chi; chi] C) /\
    is_contraction (bd A) z o add mul (layers Traced (inward (-1, 0)%Z) A (tmap cj A)) (fused (inward (-1, 0)%Z)) M /\
    is_contraction (fun _ => n * n) z o add mul (rotated U (unit_scale div amax M) cj) [V 1; V 4; V 3] N /\ ExtendSpec.padded z N [chi; chi; n * n] T.
Proof. exact (c4v_pbc_ok z o add mul div sub cj is0 amax cv Hcv SR eig negligible chi A n w U). Qed.
Print Assumptions C75_c4v_pbc.
Example C75_c4v_pbc_case : c4v_init_pbc 0%Z 1%Z Z.add Z.mul Z.div Z.sub (fun x => x) zero maxabs (fun x => x) swap_eig all_small 2 diagonal_site
  = Ok (mkT [2; 2] [1; 0; 0; 0]%Z, mkT [2; 2; 4] [0; 0; 0; 1; 0; 0; 0; 0; 0; 0; 0; 0; 0; 0; 0; 0]%Z).
Proof. exact pbc_case. Qed.

(** tensors supplied by the user: the rest of the old corner stays *)
Theorem C75_c4v_given {K} (z : K) cv (Hcv : forall x, cv x = x) chi x n C0 C T : twf C0 -> tdims C0 = [chi; chi] -> twf C -> tdims C = [x; x] -> twf T -> tdims T = [x; x; n] -> x <= chi ->
  exists C' T', c4v_given z cv chi C0 C T = Ok (C', T') /\ ExtendSpec.padded z T [chi; chi; n] T' /\
    twf C' /\ tdims C' = [chi; chi] /\
    forall i j, i < chi -> j < chi -> entry z C' [i; j] = if (i <? x) && (j <? x) then entry z C [i; j] else entry z C0 [i; j].
Proof. exact (c4v_given_ok z cv Hcv chi x n C0 C T). Qed.
Print Assumptions C75_c4v_given.
Theorem C75_c4v_given_refuted : exists chi C0 C T C' T', tdims C0 = [chi; chi] /\ c4v_given 0%Z (fun x => x) chi C0 C T = Ok (C', T') /\
  ~ ExtendSpec.padded 0%Z C [chi; chi] C'.
Proof. exact given_refuted. Qed.
Print Assumptions C75_c4v_given_refuted.
