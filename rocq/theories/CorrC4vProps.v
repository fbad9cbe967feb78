(** C72: correlation functions of the C4v symmetric state (ctm/one_site_c4v/corrf_c4v.py) against the drawn strips
    (CorrC4vSpec), whatever the factors the networks are rescaled by.  O1 and O2 are the transposes of the operators
    passed. *)
From Coq Require Import Field.
From Verif Require Import Base Tensor Net NetSpec Corners CornersSpec Corr CorrSpec CorrC4v CorrC4vSpec CorrC4vProofs5 GaussQ CorrExamples CorrExamples2 CorrC4vExamples.
Open Scope list_scope.
Open Scope nat_scope.

(** corrf_1sO1sO: entry r has the operators on the first and on the last of r+2 sites, between the drawn or between given
    edges. *)
Theorem C72_sites : forall {K : Type} (z o : K) add mul cj div maxabs (C T a : tensor K) D rl op1 O1 op2 O2 (dist : Z),
  scalars z o add mul div maxabs ->
  let norm n := norm_of cj C T a 1 rl n in let net n r := sites_net cj C T a rl n O1 (O2 r) in let val := value D z o add mul in
  (rl = None -> is_transpose C C) -> (0 <= dist)%Z -> is_transpose op1 O1 -> (forall r, is_transpose (op2 r) (O2 r)) ->
  (forall r, (Z.of_nat r <= dist)%Z -> fits D (norm (r + 2)) /\ fits D (net (r + 2) r) /\ val (norm (r + 2)) <> z) ->
  corrf_1sO1sO z o add mul cj C T a div maxabs op1 op2 dist rl = Ok (map (fun r => div (val (net (r + 2) r)) (val (norm (r + 2)))) (seq 0 (Z.to_nat (dist + 1)))).
Proof. intros K z o add mul cj div maxabs C T a D rl op1 O1 op2 O2 dist ((sub & opp & inv & FT) & MA).
  exact (sites_ok z o add mul cj sub opp div inv FT maxabs MA C T a D rl op1 O1 op2 O2 dist). Qed.
Print Assumptions C72_sites.
(** corrf_2sOH2sOH_E1: two-site operators on the first two and on the last two of r+4 sites; operators of real numbers. *)
Theorem C72_rows_partial : forall {K : Type} (z o : K) add mul cj div maxabs svd (C T a : tensor K) D op1 O1 op2 O2 (dist : Z),
  scalars z o add mul div maxabs -> svd_real z add mul cj svd ->
  let norm n := norm_of cj C T a 1 None n in let net n r := row_net cj C T a n O1 (O2 r) in let val := value D z o add mul in
  let dimer op O := (exists p, p <> 0 /\ tdims op = [p; p; p; p]) /\ real cj op /\ is_transpose2 op O in
  (forall k, D k <> 0) -> is_transpose C C -> (0 <= dist)%Z -> dimer op1 O1 -> (forall r, dimer (op2 r) (O2 r)) ->
  (forall r, (Z.of_nat r <= dist)%Z -> fits D (norm (r + 4)) /\ fits D (net (r + 4) r) /\ val (norm (r + 4)) <> z) ->
  corrf_2sOH2sOH_E1 z o add mul cj C T a svd div maxabs op1 op2 dist = Ok (map (fun r => div (val (net (r + 4) r)) (val (norm (r + 4)))) (seq 0 (Z.to_nat (dist + 1)))).
Proof. intros K z o add mul cj div maxabs svd C T a D op1 O1 op2 O2 dist ((sub & opp & inv & FT) & MA) SV.
  exact (row_ok z o add mul cj sub opp div inv FT maxabs MA svd SV C T a D op1 O1 op2 O2 dist). Qed.
Print Assumptions C72_rows_partial.
(** corrf_2sOV2sOV_E2: two rows, the operators on the first and on the last of r+2 columns; operators of real numbers, T
    unchanged by a reflection. *)
Theorem C72_columns_partial : forall {K : Type} (z o : K) add mul cj div maxabs svd (C T a : tensor K) D op1 O1 op2 O2 (dist : Z),
  scalars z o add mul div maxabs -> svd_real z add mul cj svd ->
  let norm n := norm_of cj C T a 2 None n in let net n r := column_net cj C T a n O1 (O2 r) in let val := value D z o add mul in
  let dimer op O := (exists p, p <> 0 /\ tdims op = [p; p; p; p]) /\ real cj op /\ is_transpose2 op O in
  (forall k, D k <> 0) -> is_transpose C C -> is_reflection T T -> (0 <= dist)%Z -> dimer op1 O1 -> (forall r, dimer (op2 r) (O2 r)) ->
  (forall r, (Z.of_nat r <= dist)%Z -> fits D (norm (r + 2)) /\ fits D (net (r + 2) r) /\ val (norm (r + 2)) <> z) ->
  corrf_2sOV2sOV_E2 z o add mul cj C T a svd div maxabs op1 op2 dist = Ok (map (fun r => div (val (net (r + 2) r)) (val (norm (r + 2)))) (seq 0 (Z.to_nat (dist + 1)))).
Proof. intros K z o add mul cj div maxabs svd C T a D op1 O1 op2 O2 dist ((sub & opp & inv & FT) & MA) SV.
  exact (column_ok z o add mul cj sub opp div inv FT maxabs MA svd SV C T a D T op1 O1 op2 O2 dist). Qed.
Print Assumptions C72_columns_partial.
(** With T reflected in the edges (only there), for any T. *)
Theorem C72_columns_reflected : forall {K : Type} (z o : K) add mul cj div maxabs svd (C T a : tensor K) D Te op1 O1 op2 O2 (dist : Z),
  scalars z o add mul div maxabs -> svd_real z add mul cj svd ->
  let norm n := norm_of cj C T a 2 None n in let net n r := column_net cj C T a n O1 (O2 r) in let val := value D z o add mul in
  let dimer op O := (exists p, p <> 0 /\ tdims op = [p; p; p; p]) /\ real cj op /\ is_transpose2 op O in
  (forall k, D k <> 0) -> is_transpose C C -> is_reflection T Te -> (0 <= dist)%Z -> dimer op1 O1 -> (forall r, dimer (op2 r) (O2 r)) ->
  (forall r, (Z.of_nat r <= dist)%Z -> fits D (norm (r + 2)) /\ fits D (net (r + 2) r) /\ val (norm (r + 2)) <> z) ->
  corrf_2sOV_edges z o add mul cj C T a svd div maxabs Te op1 op2 dist = Ok (map (fun r => div (val (net (r + 2) r)) (val (norm (r + 2)))) (seq 0 (Z.to_nat (dist + 1)))).
Proof. intros K z o add mul cj div maxabs svd C T a D Te op1 O1 op2 O2 dist ((sub & opp & inv & FT) & MA) SV.
  exact (column_ok z o add mul cj sub opp div inv FT maxabs MA svd SV C T a D Te op1 O1 op2 O2 dist). Qed.
Print Assumptions C72_columns_reflected.
(** Without: for T hermitian in its first two indices, as the environments of complex states (C43), apply_edge_L does not
    give the drawn edge. *)
Theorem C72_edges_refuted : exists (C T : tensor gq) D M, is_transpose C C /\ (forall i j k, tget T [j; i; k] = option_map gq_cj (tget T [i; j; k])) /\
  fits D (left_end C T 2 (at_col 0)) /\ edge_L gq_z gq_o gq_add gq_mul C T 2 = Ok M /\
  ~ is_contraction D gq_z gq_o gq_add gq_mul (left_end C T 2 (at_col 0)) (rims 2 (at_col 0)) M.
Proof. exact edges_refuted. Qed.
Print Assumptions C72_edges_refuted.
(** Operators of complex numbers: V^T in place of V^dagger; neither function gives the contraction. *)
Theorem C72_complex_refuted : exists (C T a : tensor gq) D op op' m u s v x,
  is_transpose C C /\ is_reflection T T /\ is_transpose2 op op' /\ tdims op = [2; 2; 2; 2] /\
  (forall i j k l, i < 2 -> j < 2 -> k < 2 -> l < 2 -> entry gq_z m [2 * i + k; 2 * j + l] = entry gq_z op [i; j; k; l]) /\
  is_svd gq_z gq_o gq_add gq_mul gq_cj m u s v /\
  let svd := fun _ => Ok (u, s, v) in let val := value D gq_z gq_o gq_add gq_mul in let norm h n := norm_of gq_cj C T a h None n in
  let row := row_net gq_cj C T a 4 op' op' in let col := column_net gq_cj C T a 2 op' op' in
  fits D (norm 1 4) /\ fits D row /\ val (norm 1 4) <> gq_z /\ fits D (norm 2 2) /\ fits D col /\ val (norm 2 2) <> gq_z /\
  corrf_2sOH2sOH_E1 gq_z gq_o gq_add gq_mul gq_cj C T a svd gq_div gmax op (fun _ => op) 0%Z = Ok [x] /\ x <> gq_div (val row) (val (norm 1 4)) /\
  corrf_2sOV2sOV_E2 gq_z gq_o gq_add gq_mul gq_cj C T a svd gq_div gmax op (fun _ => op) 0%Z = Ok [x] /\ x <> gq_div (val col) (val (norm 2 2)).
Proof. exact complex_refuted. Qed.
Print Assumptions C72_complex_refuted.
(** Operators enter transposed, as in C40. *)
Theorem C72_order_refuted : exists (C T a : tensor gq) D O1 O2 x, is_transpose C C /\
  let norm := norm_of gq_cj C T a 1 None 2 in let net := sites_net gq_cj C T a None 2 O1 O2 in let val := value D gq_z gq_o gq_add gq_mul in
  fits D norm /\ fits D net /\ val norm <> gq_z /\
  corrf_1sO1sO gq_z gq_o gq_add gq_mul gq_cj C T a gq_div gmax O1 (fun _ => O2) 0%Z None = Ok [x] /\ x <> gq_div (val net) (val norm).
Proof. exact order_refuted. Qed.
Print Assumptions C72_order_refuted.

(** the hypotheses hold *)
Lemma gq_scalars : scalars gq_z gq_o gq_add gq_mul gq_div gmax.
Proof. split; [exists gq_sub, gq_opp, gq_inv; exact gq_field|exact gmax_ok]. Qed.
Example C72_sites_case : corrf_1sO1sO gq_z gq_o gq_add gq_mul gq_cj xC xT sa gq_div gmax qO (fun _ => qO) 0%Z (Some (sl, sr)) =
  Ok (map (fun r => gq_div (value sD gq_z gq_o gq_add gq_mul (s_net (r + 2))) (value sD gq_z gq_o gq_add gq_mul (s_norm (r + 2)))) [0]).
Proof. apply (C72_sites _ _ _ _ gq_cj _ _ xC xT sa sD (Some (sl, sr)) qO qO' (fun _ => qO) (fun _ => qO') 0%Z gq_scalars).
  - discriminate.
  - lia.
  - exact tr_q.
  - intros r. exact tr_q.
  - intros r Hr. apply (s_fits r). lia. Qed.
Example C72_rows_case : corrf_2sOH2sOH_E1 gq_z gq_o gq_add gq_mul gq_cj one2 one3 da triv_svd gq_div gmax dP (fun _ => dP) 1%Z =
  Ok (map (fun r => gq_div (value dD gq_z gq_o gq_add gq_mul (d_row (r + 4))) (value dD gq_z gq_o gq_add gq_mul (d_norm 1 (r + 4)))) [0; 1]).
Proof. apply (C72_rows_partial _ _ _ _ gq_cj _ _ triv_svd one2 one3 da dD dP dP' (fun _ => dP) (fun _ => dP') 1%Z gq_scalars triv_real).
  - exact dD_pos.
  - exact tr_one.
  - lia.
  - exact dP_dimer.
  - intros r. exact dP_dimer.
  - intros r Hr. apply (d_row_fits r). lia. Qed.
Example C72_columns_case : corrf_2sOV2sOV_E2 gq_z gq_o gq_add gq_mul gq_cj one2 one3 da triv_svd gq_div gmax dP (fun _ => dP) 1%Z =
  Ok (map (fun r => gq_div (value dD gq_z gq_o gq_add gq_mul (d_column (r + 2))) (value dD gq_z gq_o gq_add gq_mul (d_norm 2 (r + 2)))) [0; 1]).
Proof. apply (C72_columns_partial _ _ _ _ gq_cj _ _ triv_svd one2 one3 da dD dP dP' (fun _ => dP) (fun _ => dP') 1%Z gq_scalars triv_real).
  - exact dD_pos.
  - exact tr_one.
  - exact refl_one.
  - lia.
  - exact dP_dimer.
  - intros r. exact dP_dimer.
  - intros r Hr. apply (d_column_fits r). lia. Qed.
