(** Properties C17, C52: the corner-spectra convergence check. *)
From Coq Require Import Reals.
From Verif Require Import Base BaseLemmas Lattice Ctm Conv ConvSpec ConvProofs.
Open Scope R_scope.
Open Scope list_scope.

(** C17: the check called after each of the iterations 1..n with environments es ++ [E]
    (n = length es + 1), threading its history *)
Theorem C17_converged_iff : forall X svdvals ks p tol mx es E,
  (forall F, In F (es ++ [E]) -> good_env X svdvals ks F) ->
  exists b h, calls X svdvals p tol mx (es ++ [E]) = Ok (Some (b, h)) /\
    length (h_spec h) = S (length es) /\ length (h_diffs h) = S (length es) /\ length (h_crit h) = S (length es) /\
    (b = true <-> (exists E0, nth_error es (length es - 1) = Some E0 /\ near X svdvals p tol E0 E) \/
                  (mx <= Z.of_nat (S (length es)))%Z).
Proof. exact calls_converged. Qed.
Print Assumptions C17_converged_iff.

(** C52: with the default norm two spectra count as converged although the documented
    quantity exceeds the tolerance *)
Theorem C52_two_norm_refuted : exists (X : Type) (svdvals : X -> list R) ks tol E1 E2 h,
  good_env X svdvals ks E1 /\ good_env X svdvals ks E2 /\
  calls X svdvals Pinf tol 50 [E1; E2] = Ok (Some (true, h)) /\ ~ near X svdvals Pfro tol E1 E2.
Proof. exact calls_default_refuted. Qed.
Print Assumptions C52_two_norm_refuted.

Example C17_example : good_env bool w_svd [w_k1; w_k2] w_E1 /\ good_env bool w_svd [w_k1; w_k2] w_E2 /\
  near bool w_svd Pinf (6 / 10) w_E1 w_E2 /\ ~ near bool w_svd Pfro (6 / 10) w_E1 w_E2.
Proof. exact (conj w_good1 (conj w_good2 (conj w_near w_not_near))). Qed.
