(** C37: the reduced density matrices returned to the user.  [square ds M]: M is a matrix on sites of
    dimensions ds; [hermitian_op], [trace_op], [positive_op], [density_op], [normalized_part]: RdmPostSpec.
    [good_eigh]: eigh gives a spectral decomposition of hermitian matrices, if it returns. *)
From Coq Require Import Ring Field_theory.
From Verif Require Import Base Lattice Tensor Net NetSpec NetProofs3 GaussQ CornersSpec RdmSpec CtmC4vSpec CtmC4vExamples RdmPost RdmPostSpec RdmPostProofs RdmPostProofs2 RdmPostExamples.
From Verif Require Ctm.
Open Scope list_scope.
Open Scope nat_scope.
Open Scope res_scope.

Section Props.
Context {K : Type} (z o half : K) (add mul sub : K -> K -> K) (opp : K -> K) (div : K -> K -> K) (inv : K -> K)
  (cj : K -> K) (is0 lt0 imag_big : K -> bool) (nonneg : K -> Prop).
Hypothesis L : order_laws z o half add mul sub opp div inv cj is0 lt0 nonneg.
Hypothesis imag_real : forall x, cj x = x -> imag_big x = false.
Variable eigh : tensor K -> res (list K * tensor K).
Hypothesis HE : good_eigh z add mul cj eigh.
Notation spd := (sym_pos_def_rdm z o half add mul div cj is0 imag_big lt0 eigh).

(** whatever the matrix: the result is hermitian with trace one, and positive if asked for *)
Theorem C37_density cplx s ds M R : square ds M -> spd cplx s M = Ok R -> density_op z o add mul cj nonneg s ds R.
Proof. exact (fun S H => rdm_result z o half add mul sub opp div inv cj is0 lt0 imag_big nonneg L imag_real eigh cplx s ds M R HE S H). Qed.

(** without positivity the result is the hermitian part over the real part of the trace, and the
    function fails exactly when the latter is zero *)
Theorem C37_value cplx ds M : square ds M -> ds <> [] -> prod_dims ds <> 0 ->
  (spd cplx false M = Err ZeroDivisionError /\ mul half (add (trace_op z add ds M) (cj (trace_op z add ds M))) = z) \/
  (exists R, spd cplx false M = Ok R /\ normalized_part z add mul cj half div ds M R /\
     mul half (add (trace_op z add ds M) (cj (trace_op z add ds M))) <> z).
Proof. exact (value z o half add mul sub opp div inv cj is0 lt0 imag_big nonneg L imag_real eigh cplx ds M). Qed.

(** a density matrix is returned unchanged: no eigenvalue is below zero in the second case *)
Theorem C37_unchanged cplx ds R : hermitian_op z cj ds R -> trace_op z add ds R = o -> ds <> [] -> prod_dims ds <> 0 -> spd cplx false R = Ok R.
Proof. exact (rdm_unchanged z o half add mul sub opp div inv cj is0 lt0 imag_big nonneg L imag_real eigh cplx ds R). Qed.
Theorem C37_unchanged_positive cplx ds R D U : hermitian_op z cj ds R -> trace_op z add ds R = o -> ds <> [] -> prod_dims ds <> 0 ->
  eigh (mkT [prod_dims ds; prod_dims ds] (tdata R)) = Ok (D, U) -> length D = prod_dims ds -> Forall (fun x => lt0 x = false) D ->
  spd cplx true R = Ok R.
Proof. exact (rdm_unchanged_pos z o half add mul sub opp div inv cj is0 lt0 imag_big nonneg L imag_real eigh cplx ds R D U). Qed.

(** with positivity: the negative eigenvalues of the hermitian part H are set to zero; [flat]: the
    number of a row *)
Theorem C37_positive_part cplx ds M R : square ds M -> spd cplx true M = Ok R ->
  exists H D U t, shaped [prod_dims ds; prod_dims ds] H /\
  (forall ix iy, in_shape ds ix -> in_shape ds iy ->
     entry z H [flat ds ix; flat ds iy] = mul half (add (entry z M (ix ++ iy)) (cj (entry z M (iy ++ ix))))) /\
  eigh H = Ok (D, U) /\ t <> z /\
  forall ix iy, in_shape ds ix -> in_shape ds iy -> entry z R (ix ++ iy) =
    div (total z add (fun k => mul (entry z U [flat ds ix; k]) (mul (if lt0 (nth k D z) then z else nth k D z) (cj (entry z U [flat ds iy; k])))) (seq 0 (prod_dims ds))) t.
Proof. exact (positive_part z o half add mul sub opp div inv cj is0 lt0 imag_big nonneg L imag_real eigh cplx ds M R HE). Qed.

(** expectation values of hermitian operators are real, for both orders of the indices *)
Theorem C37_expectation_real cplx s ds M R O : square ds M -> spd cplx s M = Ok R -> hermitian_op z cj ds O ->
  cj (expectation z add mul ds R O) = expectation z add mul ds R O /\ cj (expectation_t z add mul ds R O) = expectation_t z add mul ds R O.
Proof. exact (fun S H HO => expectation_real z o half add mul sub opp div inv cj is0 lt0 nonneg L ds R O (proj1 (rdm_result z o half add mul sub opp div inv cj is0 lt0 imag_big nonneg L imag_real eigh cplx s ds M R HE S H)) HO). Qed.

(** the check of the imaginary part of the norm never raises *)
Theorem C37_no_cast_failure cplx s n M : shaped [n; n] M ->
  sym_pos_def_matrix z o half add mul div cj is0 imag_big lt0 eigh true cplx s M = sym_pos_def_matrix z o half add mul div cj is0 imag_big lt0 eigh false cplx s M.
Proof. exact (spdm_fail z o half add mul sub opp div inv cj is0 lt0 imag_big nonneg L imag_real eigh cplx s n M HE). Qed.

(** The functions of ctm/generic/rdm.py: the matrices returned are density matrices, made of the
    contraction of the patch (C63). *)
Section At.
Variables (D : nat -> nat) (st : ipeps (tensor K)) (e : Ctm.envt (tensor K)) (As : coord -> tensor K) (Cs Ts : coord -> coord -> tensor K).
Hypothesis HS : sees st e As Cs Ts.
Notation returns := (returns z o add mul cj half div nonneg D As Cs Ts).
Notation P f := (f z o half add mul div cj is0 imag_big lt0 eigh).
Theorem C37_rdm1x1_partial cplx s c sl : fits D (patch_at cj As Cs Ts 1 1 [(0, 0)] c) -> (sl = true \/ i_v2s st c = Ok c) ->
  returns s 1 1 [(0, 0)] c (P (@rdm1x1 K) cplx s st e c sl).
Proof. exact (rdm1x1_returns z o half add mul sub opp div inv cj is0 lt0 imag_big nonneg L imag_real eigh D st e As Cs Ts HS HE cplx s c sl). Qed.
Theorem C37_rdm2x1 cplx s c sl : fits D (patch_at cj As Cs Ts 2 1 [(0, 0); (1, 0)] c) ->
  returns s 2 1 [(0, 0); (1, 0)] c (P (@rdm2x1 K) cplx s st e c sl).
Proof. exact (rdm2x1_returns z o half add mul sub opp div inv cj is0 lt0 imag_big nonneg L imag_real eigh D st e As Cs Ts HS HE cplx s c sl). Qed.
Theorem C37_rdm1x2 cplx s c sl : fits D (patch_at cj As Cs Ts 1 2 [(0, 0); (0, 1)] c) ->
  returns s 1 2 [(0, 0); (0, 1)] c (P (@rdm1x2 K) cplx s st e c sl).
Proof. exact (rdm1x2_returns z o half add mul sub opp div inv cj is0 lt0 imag_big nonneg L imag_real eigh D st e As Cs Ts HS HE cplx s c sl). Qed.
Theorem C37_rdm2x2_NNN_11 cplx s c : fits D (patch_at cj As Cs Ts 2 2 [(0, 0); (1, 1)] c) ->
  returns s 2 2 [(0, 0); (1, 1)] c (P (@rdm2x2_NNN_11 K) cplx s st e c).
Proof. exact (nnn11_returns z o half add mul sub opp div inv cj is0 lt0 imag_big nonneg L imag_real eigh D st e As Cs Ts HS HE cplx s c). Qed.
Theorem C37_rdm2x2_NNN_1n1 cplx s c oe : fits D (patch_at cj As Cs Ts 2 2 [(0, 1); (1, 0)] (cadd c (0, -1)%Z)) ->
  returns s 2 2 [(0, 1); (1, 0)] (cadd c (0, -1)%Z) (P (@rdm2x2_NNN_1n1 K) cplx s st e c oe).
Proof. exact (nnn1n1_returns z o half add mul sub opp div inv cj is0 lt0 imag_big nonneg L imag_real eigh D st e As Cs Ts HS HE cplx s c oe). Qed.
Theorem C37_rdm2x2_legacy cplx s c : fits D (patch_at cj As Cs Ts 2 2 [(0, 0); (1, 0); (0, 1); (1, 1)] c) ->
  returns s 2 2 [(0, 0); (1, 0); (0, 1); (1, 1)] c (P (@rdm2x2_legacy K) cplx s st e c).
Proof. exact (rdm2x2_returns z o half add mul sub opp div inv cj is0 lt0 imag_big nonneg L imag_real eigh D st e As Cs Ts HS HE cplx s c). Qed.
Theorem C37_rdm2x2_oe cplx s c open : NoDup open -> Forall (fun k => k < 4) open -> fits D (patch_at cj As Cs Ts 2 2 (named_sites open) c) ->
  returns s 2 2 (named_sites open) c (P (@rdm2x2_oe K) cplx s st e c open).
Proof. exact (oe_returns z o half add mul sub opp div inv cj is0 lt0 imag_big nonneg L imag_real eigh D st e As Cs Ts HS HE cplx s c open). Qed.
(** with no site open there is no result *)
Theorem C37_no_open_site cplx s c : fits D (patch_at cj As Cs Ts 2 2 [] c) -> P (@rdm2x2_oe K) cplx s st e c [] = Err TypeError.
Proof. exact (oe_none z o half add mul sub opp div inv cj is0 lt0 imag_big nonneg L eigh D st e As Cs Ts HS cplx s c). Qed.
End At.
End Props.
Print Assumptions C37_density.
Print Assumptions C37_value.
Print Assumptions C37_unchanged.
Print Assumptions C37_unchanged_positive.
Print Assumptions C37_positive_part.
Print Assumptions C37_expectation_real.
Print Assumptions C37_no_cast_failure.
Print Assumptions C37_rdm1x1_partial.
Print Assumptions C37_rdm2x1.
Print Assumptions C37_rdm1x2.
Print Assumptions C37_rdm2x2_NNN_11.
Print Assumptions C37_rdm2x2_NNN_1n1.
Print Assumptions C37_rdm2x2_legacy.
Print Assumptions C37_rdm2x2_oe.
Print Assumptions C37_no_open_site.

(** positivity over complex numbers: a hermitian matrix with a negative eigenvalue and trace one, and
    a right eigensolver; U @ diag(D) refuses a complex and a real operand *)
Theorem C37_complex_refuted : exists eigh M D U, good_eigh gq_z gq_add gq_mul gq_cj eigh /\ hermitian_op gq_z gq_cj [2] M /\
  trace_op gq_z gq_add [2] M = gq_o /\ eigh M = Ok (D, U) /\
  sym_pos_def_rdm gq_z gq_o ghalf gq_add gq_mul gq_div gq_cj gis0 gimag glt0 eigh true true M = Err RuntimeError.
Proof. exact bad_complex. Qed.
Print Assumptions C37_complex_refuted.
(** a matrix with a nonzero trace that cannot be normalized *)
Theorem C37_trace_refuted : exists M, square [2] M /\ trace_op gq_z gq_add [2] M <> gq_z /\
  forall eigh c, sym_pos_def_rdm gq_z gq_o ghalf gq_add gq_mul gq_div gq_cj gis0 gimag glt0 eigh c false M = Err ZeroDivisionError.
Proof. exact bad_trace. Qed.
Print Assumptions C37_trace_refuted.
(** a hermitian matrix normalized without positivity, but not with it *)
Theorem C37_negative_refuted : exists eigh M R, good_eigh gq_z gq_add gq_mul gq_cj eigh /\ hermitian_op gq_z gq_cj [2] M /\ trace_op gq_z gq_add [2] M <> gq_z /\
  sym_pos_def_rdm gq_z gq_o ghalf gq_add gq_mul gq_div gq_cj gis0 gimag glt0 eigh false true M = Err ZeroDivisionError /\
  sym_pos_def_rdm gq_z gq_o ghalf gq_add gq_mul gq_div gq_cj gis0 gimag glt0 eigh false false M = Ok R.
Proof. exact bad_negative. Qed.
Print Assumptions C37_negative_refuted.
(** the version for abelian tensors does not enforce positivity *)
Theorem C37_abelian_refuted : exists M R, hermitian_op gq_z gq_cj [2] M /\ trace_op gq_z gq_add [2] M = gq_o /\
  sym_pos_def_rdm_abelian gq_z ghalf gq_add gq_mul gq_div gq_cj gis0 gimag true true M = Ok R /\ ~ positive_op gq_z gq_add gq_mul gq_cj gnn [2] R.
Proof. exact bad_abelian. Qed.
Print Assumptions C37_abelian_refuted.

Example C37_laws : order_laws gq_z gq_o ghalf gq_add gq_mul gq_sub gq_opp gq_div gq_inv gq_cj gis0 glt0 gnn /\ (forall x, gq_cj x = x -> gimag x = false).
Proof. exact (Logic.conj g_order g_imag_real). Qed.
(** [[3, 2i], [0, 1]] *)
Example C37_value_case : square [2] Mx /\ forall eigh, sym_pos_def_rdm gq_z gq_o ghalf gq_add gq_mul gq_div gq_cj gis0 gimag glt0 eigh true false Mx = Ok Rx.
Proof. exact (Logic.conj ex_square ex_value). Qed.
(** eigenvalues -1 and 2 *)
Example C37_positive_case : good_eigh gq_z gq_add gq_mul gq_cj (knows Hn Dn Un) /\
  sym_pos_def_rdm gq_z gq_o ghalf gq_add gq_mul gq_div gq_cj gis0 gimag glt0 (knows Hn Dn Un) false true Hn = Ok Rn.
Proof. exact (Logic.conj ex_good ex_pos). Qed.
