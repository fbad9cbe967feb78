(** Correlation functions. *)
From Verif Require Import Base Lattice Tensor Net NetSpec Corners CornersSpec RdmSpec RdmExamples Corr CorrSpec CorrProofs5 CorrProofs8 GaussQ CorrExamples CorrExamples2.
From Verif Require Ctm.
From Coq Require Import Field.
Open Scope list_scope.
Open Scope nat_scope.

(** C40: entry r is <O1 O2(r)> on the strip of r+2 sites, whatever the factors the networks are rescaled by.
    O1' and O2' are the transposes of the operators passed. *)
Theorem C40_transposed : forall {K : Type} (z o : K) add mul cj div maxabs st e As Cs Ts D d c rl op1 op1' op2 op2' (dist : Z),
  setting z o add mul div maxabs st e As Cs Ts ->
  let ends := (option_map fst rl, option_map snd rl) in
  let norm n := norm_net cj As Cs Ts ends d c n in
  let corr n r := corr_net cj As Cs Ts ends d c n op1' (op2' r) in
  let val := value D z o add mul in
  (0 <= dist)%Z -> is_transpose op1 op1' -> (forall r, is_transpose (op2 r) (op2' r)) ->
  (forall r, (Z.of_nat r <= dist)%Z -> fits D (norm (r + 2)) /\ fits D (corr (r + 2) r) /\ val (norm (r + 2)) <> z) ->
  corrf_1sO1sO z o add mul cj st e div maxabs c (dvec d) op1 op2 dist rl =
  Ok (map (fun r => div (val (corr (r + 2) r)) (val (norm (r + 2)))) (seq 0 (Z.to_nat (dist + 1)))).
Proof. intros K z o add mul cj div maxabs st e As Cs Ts D d c rl op1 op1' op2 op2' dist ((sub & opp & inv & FT) & MA & HS).
  exact (corrf_1sO1sO_ok z o add mul cj sub opp div inv FT maxabs MA st e As Cs Ts HS D d c rl op1 op1' op2 op2' dist). Qed.
Print Assumptions C40_transposed.
(** C40: with symmetric operators, the documented correlation function *)
Theorem C40_symmetric : forall {K : Type} (z o : K) add mul cj div maxabs st e As Cs Ts D d c rl op1 op2 (dist : Z),
  setting z o add mul div maxabs st e As Cs Ts ->
  let ends := (option_map fst rl, option_map snd rl) in
  let norm n := norm_net cj As Cs Ts ends d c n in
  let corr n r := corr_net cj As Cs Ts ends d c n op1 (op2 r) in
  let val := value D z o add mul in
  (0 <= dist)%Z -> is_transpose op1 op1 -> (forall r, is_transpose (op2 r) (op2 r)) ->
  (forall r, (Z.of_nat r <= dist)%Z -> fits D (norm (r + 2)) /\ fits D (corr (r + 2) r) /\ val (norm (r + 2)) <> z) ->
  corrf_1sO1sO z o add mul cj st e div maxabs c (dvec d) op1 op2 dist rl =
  Ok (map (fun r => div (val (corr (r + 2) r)) (val (norm (r + 2)))) (seq 0 (Z.to_nat (dist + 1)))).
Proof. intros K z o add mul cj div maxabs st e As Cs Ts D d c rl op1 op2 dist ((sub & opp & inv & FT) & MA & HS).
  exact (corrf_1sO1sO_ok z o add mul cj sub opp div inv FT maxabs MA st e As Cs Ts HS D d c rl op1 op1 op2 op2 dist). Qed.
Print Assumptions C40_symmetric.
(** C40: not with other operators *)
Theorem C40_operators_refuted : exists st e As Cs Ts D c O1 O2 x, sees st e As Cs Ts /\
  let norm := norm_net gq_cj As Cs Ts (None, None) Right c 2 in let corr := corr_net gq_cj As Cs Ts (None, None) Right c 2 O1 O2 in
  let val := value D gq_z gq_o gq_add gq_mul in
  fits D norm /\ fits D corr /\ val norm <> gq_z /\
  corrf_1sO1sO gq_z gq_o gq_add gq_mul gq_cj st e gq_div gmax c (1, 0)%Z O1 (fun _ => O2) 0%Z None = Ok [x] /\
  x <> gq_div (val corr) (val norm).
Proof. exact operators_refuted. Qed.
Print Assumptions C40_operators_refuted.

(** C66: two-site operators on neighbouring sites along the strip: entry r has the operators on the first two and on
    the last two of r+4 sites.  They are inserted exactly, transposed. *)
Theorem C66_dimers : forall {K : Type} (z o : K) add mul cj div maxabs svd st e As Cs Ts D d c op1 op1' op2 op2' (dist : Z),
  setting z o add mul div maxabs st e As Cs Ts -> svd_exact z add mul cj svd ->
  let norm n := norm_net cj As Cs Ts (None, None) d c n in
  let dimer n r := dimer_net cj As Cs Ts (None, None) d c n op1' (op2' r) in
  let val := value D z o add mul in
  let square op := exists p, p <> 0 /\ tdims op = [p; p; p; p] in
  (forall k, D k <> 0) -> (0 <= dist)%Z -> is_transpose2 op1 op1' -> (forall r, is_transpose2 (op2 r) (op2' r)) -> square op1 -> (forall r, square (op2 r)) ->
  (forall r, (Z.of_nat r <= dist)%Z -> fits D (norm (r + 4)) /\ fits D (dimer (r + 4) r) /\ val (norm (r + 4)) <> z) ->
  corrf_2sOH2sOH_E1 z o add mul cj st e svd div maxabs c (dvec d) op1 op2 dist =
  Ok (map (fun r => div (val (dimer (r + 4) r)) (val (norm (r + 4)))) (seq 0 (Z.to_nat (dist + 1)))).
Proof. intros K z o add mul cj div maxabs svd st e As Cs Ts D d c op1 op1' op2 op2' dist ((sub & opp & inv & FT) & MA & HS) SV.
  exact (corrf_2sOH2sOH_ok z o add mul cj sub opp div inv FT maxabs MA svd SV st e As Cs Ts HS D d c op1 op1' op2 op2' dist). Qed.
Print Assumptions C66_dimers.
(** C66: across two rows the operators are not inserted: the singular values are lost *)
Theorem C66_rows_refuted : exists st e As Cs Ts D c O, sees st e As Cs Ts /\
  let norm := rows_norm gq_cj As Cs Ts c 2 in let net := rows_net gq_cj As Cs Ts c 2 O O in
  let val := value D gq_z gq_o gq_add gq_mul in
  fits D norm /\ fits D net /\ val norm = gq_o /\ val net = gq_int 4 0 /\
  forall svd, svd (ints [1; 1] [(2, 0)%Z]) = Ok (gones [1; 1], [gq_int 2 0], gones [1; 1]) ->
  corrf_2sOV2sOV_E2 gq_z gq_o gq_add gq_mul gq_cj st e svd gq_div gmax c (1, 0)%Z O (fun _ => O) 0%Z = Ok [gq_o].
Proof. exact rows_refuted. Qed.
Print Assumptions C66_rows_refuted.

(** the hypotheses hold, for a state with bonds of dimension 2 and for a product state *)
Lemma q_setting : setting gq_z gq_o gq_add gq_mul gq_div gmax (gst qA) (genv qC qT) (fun _ => qA) (fun _ => gpick dirs_C qC) (fun _ => gpick dirs_T qT).
Proof. split; [exists gq_sub, gq_opp, gq_inv; exact gq_field|]. split; [exact gmax_ok|exact q_sees]. Qed.
Example C40_case : corrf_1sO1sO gq_z gq_o gq_add gq_mul gq_cj (gst qA) (genv qC qT) gq_div gmax (0, 0)%Z (1, 0)%Z qO (fun _ => qO) 1%Z None =
  Ok (map (fun r => gq_div (value qD gq_z gq_o gq_add gq_mul (q_corr (r + 2) qO' qO')) (value qD gq_z gq_o gq_add gq_mul (q_norm (r + 2)))) [0; 1]).
Proof. apply (C40_transposed _ _ _ _ gq_cj _ _ _ _ _ _ _ qD Right (0, 0)%Z None qO qO' (fun _ => qO) (fun _ => qO') 1%Z q_setting).
  - lia.
  - exact tr_q.
  - intros r. exact tr_q.
  - intros r Hr. apply (q_fits r). lia. Qed.
Lemma p_setting : setting gq_z gq_o gq_add gq_mul gq_div gmax pst penv (fun _ => pA) (fun _ => gpick dirs_C pC) (fun _ => gpick dirs_T pT).
Proof. split; [exists gq_sub, gq_opp, gq_inv; exact gq_field|]. split; [exact gmax_ok|exact p_sees]. Qed.
Example C66_case : corrf_2sOH2sOH_E1 gq_z gq_o gq_add gq_mul gq_cj pst penv triv_svd gq_div gmax (0, 0)%Z (1, 0)%Z qP (fun _ => qP) 1%Z =
  Ok (map (fun r => gq_div (value pD gq_z gq_o gq_add gq_mul (p_dimer (r + 4) qP' qP')) (value pD gq_z gq_o gq_add gq_mul (p_norm (r + 4)))) [0; 1]).
Proof. apply (C66_dimers _ _ _ _ gq_cj _ _ triv_svd _ _ _ _ _ pD Right (0, 0)%Z qP qP' (fun _ => qP) (fun _ => qP') 1%Z p_setting triv_exact).
  - exact (proj2 (proj2 p_square)).
  - lia.
  - exact tr_qP.
  - intros r. exact tr_qP.
  - exists 2. split; [lia|reflexivity].
  - intros r. exists 2. split; [lia|reflexivity].
  - intros r Hr. apply (p_dimer_fits r). lia. Qed.
