# Formal model of peps-torch in Rocq (Coq 8.16.1)

## Layout

* `properties.jsonl` - the properties (C01, C02, ...).
* `rocq/theories/<Topic>.v` - model: executable Gallina functions mirroring the Python
  functions branch by branch, exceptions as values. Every definition cites file and lines.
* `rocq/theories/<Topic>Spec.v` (or a `Spec` section at the top of the proof file) - the
  specification, stated without the model's helpers.
* `rocq/theories/<Topic>Proofs.v` - lemmas.
* `rocq/theories/<Topic>Props.v` - the property theorems, each closed by `exact`, each
  followed by `Print Assumptions`, each accompanied by an `Example` showing that the
  hypotheses are met by a non-trivial case.
* `MANIFEST.json` - property -> theorem names and status.
* `seeded/LOG.jsonl` - wrong programs tried against the theorems.

Naming: `..._partial` proves part of the property (the missing part is stated next to it),
`..._refuted` exhibits an input for which the faithful model violates the property.

## Modelling conventions

* Python `int` -> `Z`; Python `%` with positive modulus -> `Z.modulo` (both round to -inf).
* Python exceptions -> constructors of an error type (`Err e`), every `raise`, failing
  `assert`, `KeyError`, `IndexError` on a modelled path is a distinct value.
* dictionaries -> association lists in insertion order (Python >= 3.7 semantics):
  assignment to an existing key keeps its position.
* tensors -> functions from index lists with an explicit shape, or flat row-major lists where
  the code depends on the layout. Scalars are an abstract ring/field or stdlib `R`;
  floating-point rounding is NOT modelled (all algebraic theorems are about exact arithmetic).
* external calls (torch/numpy/scipy decompositions, float printing, file system, callbacks)
  -> parameters of a `Section` with their assumed behaviour as explicit hypotheses of
  the resulting theorems.

## Plan per property

| id | modelled code | proof |
|----|---------------|-------|
| C01 | default `vertexToSite` of `IPEPS.__init__`, `read_ipeps` | `Z` arithmetic |
| C02 | `from_pattern` completely | characterisation of success; sortedness and minimality of representatives |
| C03 | tiling of an accepted pattern | induction over lattice paths from nearest-neighbour consistency |
| C04 | constructor `IPEPS.__init__` + `site` | case analysis over the priority of maps, C02/C03 |
| C05 | constructor with dictionary pattern | expected refutation: `pattern[0]` is a KeyError |
| C06 | documented maps, `IPEPS_1S_Q` | `Z` arithmetic |
| C07 | `serialize_bare_tensor_np`, `read_bare_json_tensor_np` | list/row-major reshaping |
| C08 | `serialize_bare_tensor_legacy`, `read_bare_json_tensor_np_legacy` with real strings | decimal printing/parsing, token splitting, row-major enumeration |
| C09 | same reader on arbitrary entry lists | permutation invariance |
| C10 | `_write_ipeps_json`, `read_ipeps` | round trip under periodicity; refutation for non-periodic maps |
| C11 | index permutations in reader/writer | reader proved; writer refuted (argument ignored) |
| C12 | `extend_bond_dim` | zero-padding leaves contractions unchanged |
| C13, C14 | `ctm_MOVE` | write-set and independence from order by injectivity of the shift |
| C15, C16 | `run` with an arbitrary stateful `conv_check` | induction on fuel = range; warm-up bound refuted |
| C17 | `ctmrg_conv_specC` | induction over history |
| C18, C19 | multiplet truncation, `truncated_*` shapes | list induction; propack/lobpcg refuted |
| C20 | `ctm_get_projectors_from_matrices` | mathcomp matrices over a field |
| C21, C22 | `LBFGS_MOD.step_2c` | invariant by induction over steps; two-loop recursion identity |
| C23 | `_scalar_search_armijo` | reals; measure for termination |
| C24 | `_directional_evaluate*`, `grad_fd` | state-passing model, restoration |
| C25, C26, C27 | `optimize_state` epochs, checkpoints, `load_optimizer_state_` | invariants over histories, refutations |
| C28 | `get_args_parser`, `configure` | model of the argument grouping on strings |
| C29, C30 | `groups/pg.py` | identities over an abstract field of char 0, all tensors |
| C31, C32 | `groups/su2.py` | real matrices indexed by nat, all dimensions |
| C33 | `groups/permutations.py` | induction over orbits; sign = (-1)^inversions |
| C34 | `u1sym/basis.py` | finite group acting on quadruples |
| C35 | `oe_ext` unrolling | finite sums over index assignments; loop invariant: an entry of the accumulator, once written, is the sum over the labels that are not unrolled |
| C36 | `c2x2_*`, `rdm1x1` | finite sums, exchange of summation |
| C37 | `_sym_pos_def_*` | mathcomp matrices |
| C38, C39, C48 | plaquette Hamiltonians, energy averages | sums over torus; j3 refuted |
| C40 | `corrf_1sO1sO` | each transfer matrix contracts its part of the strip (C63 method); induction over the distance with a scale factor as additional tensor |
| C66 | `corrf_2sOH2sOH_E1`, `corrf_2sOV2sOV_E2` | as C40, with the operator split by an exact decomposition; refutation for two rows |
| C41 | checkpoints of state classes | checkpoints as Python values (dictionaries, tuples, tensors); round trip per class; refutation for triangular, bond-projector and some kagome states |
| C42, C67 | `ipeps_lc`, `ipeps_lc_bp`: file format, on-site tensor | strings as in C08, C50; real round trip, effect of every refuted case stated; complex refuted; sums over a ring for C67, for a bond tensor also the dressed tensor and the checkerboard |
| C68, C69 | backward functions of the decompositions, `fix_svd_signs` | derivatives along curves as dual numbers (first order part of an identity between matrices); trace pairing of gradient and change, over any numerically closed field |
| C43 | `ctm_MOVE` of one-site C4v | invariant by induction |
| C44 | `ENV.extend`, `clone` | as C12 |
| C45 | `generate_weights`, `weight`, `absorb_weights` | tilings from C03; product over bonds |
| C46 | `SGD_MOD.step_2c` | in-place aliasing modelled by a store; refutation |
| C47 | sparse-table parsers | lists/strings |
| C49 | constructor with pattern and map | case analysis; refuted |
| C50 | `serialize_basis_t`, `read_basis_t` | as C08 |
| C51 | `ctm_MOVE` under a translation of the description | simulation between two site dictionaries |
| C52 | `ctmrg_conv_specC` norm | real witness |
| C53, C54, C55 | `LBFGS_MOD.step_2c` loop control, failures, descent | runs of the state monad |
| C56, C57 | `extend_bond_dim` failure, `ENV.extend` dtype | store with mutation |
| C58, C59, C60, C61, C62 | HB, COUPLEDCHAINS, JQ, COUPLEDLADDERS energies, chiral term | operators on a periodic lattice, as C38 |
| C70 | rdm_c4v.py | C63 method; the same corner is represented at the four places it is used for, the symmetries give the leaves turned |
| C71 | ad_optim_lbfgs_mod.py, lbfgs_modified.py `step_2c` | invariant over epochs: the pair (new_loss, new_flat_grad) is None or belongs to the parameters; runs on x^4/4 for the refutations |
| C72 | corrf_c4v.py | as C40 and C66: one lemma for all three loops, from two facts per function (a column is added, the strip is closed); operators of real numbers; refutations for complex operators and edges |
| C73 | transferops.py, transferops_c4v.py, `apply_TM_0sO` | the operator given to the solver refines iterated strips (lemmas of C40, C72); sorting by an abstract argsort; runs on 8SITE and a row of three sites for the refutations |
| C74 | get_EH_spec_Ttensor (both), get_full_EH_spec_Ttensor | loop invariant over the sites of the ring, for every width, with symbolic leg lists (`NetDot`: contraction of two networks over lists of positions); density matrix of two given sets of kets for the refutation with complex states |
| C75 | ENV(chi,state), init_env, init_prod_overlap; C4v init_env | each tensor a contraction of a two-layer network with open legs listed by direction; padding reused from C12; induction over the sites of the dictionary |
| C76 | AKLTS2.get_h, AKLTS2_C4V_BIPARTITE.get_h | total spin defined by S^2 v = J(J+1) v for two-site states (AkltSpec, no matrices of the code); on an eigenstate of S1.S2 the polynomial is a number, so the operator identity (X - 4) h = 0 suffices; it is decided by computation on 25 x 25 matrices over Z[sqrt 6] and carried to the reals |
| C77 | single-site bipartite energies of j1j2, j1j2lambda, jq, coupledLadders, akltS2, ising | the rotation is a signed involution of the basis; the state rotated on the odd sublattice is defined on the whole torus (BipSpec: `rotated`), the energy is its expectation value of the torus Hamiltonian of C68-C70; an operator invariant under rotating all its sites may be rotated on either sublattice, homogeneity moves every term to the origin |
| C78 | groups/su3.py, operators of models/su3_kagome.py, SU3_chiral.py, SU3_AKLT.py | the tensors are computed in exact arithmetic (numbers (a+bi+c sqrt 3+d i sqrt 3)/6^e, Su3Num) and compared there element by element; a ring homomorphism from that arithmetic carries the identities to every ring with 1/2, 1/3, i and sqrt 3. Spec (Su3Spec): table of structure constants, permutations acting on lists of three states |
| C79 | models/spin_half_kagome.py, spin1_kagome.py: operators | every tensor built by einsum, permute and assignment equals, element by element, the operator written with matrices acting on named sites (KagSpec: place, on1, on2, dot, cross_z, triple, H_kagome), for any spin matrices over any ring with 1/2 and i |
| C80 | ctm/pess_kagome/rdm_kagome.py | refinement to the network of the patch (RdmKagSpec), cells with three spins each; every enlarged corner for all 8 sets of open spins, then all 64 upper and all 64 lower halves by computing on the network in the kernel, joined by a lemma on labels (RdmKagRun) |
| C81 | models/spin_half_kagome.py, models/su3_kagome.py | energies per spin of a periodic kagome lattice (KagESpec: every spin in one up and one down triangle); the values of the density matrices of C80 enter as oracles |
| C82 | ipeps/ipess_kagome.py | amplitudes written as four sums, irreps as equations between elements (IpessSpec); constructors, noise, larger bonds, files, checkpoints and linear combinations |
| C83 | ipeps/ipeps_d2.py, ipeps/ipeps_kagome.py | mirror images and symmetry as equations between elements (D2KagSpec); constructors, noise, larger bonds, checkpoints, files, physical dimension |
| C84 | linalg/svd_rsvd.py, linalg/custom_svd.py | decompositions, leading columns and spanned columns by equations of matrices (RsvdSpec); every sample, number of passes and interval |
| C85 | linalg/eig_sym.py, eig_arnoldi.py, svd_symeig.py, svd_arnoldi.py | eigenpairs, orders and permutations of pairs by equations of matrices (SymSpec) |
| C86 | linalg/eig_lobpcg.py | largest eigenvalues against eigenvalues of largest modulus (LobpcgSpec) |
| C36, C63, C64, C65 | corners, halves, absorption, reduced density matrices, operators in matrix-product form | every step of the code is represented by a list of factors and bonds (`rep`); the final list is a permutation of the drawn network |

## Trusted base

* The Coq 8.16.1 kernel (and `vm_compute` where used).
* What `Print Assumptions` lists for each theorem (section "Axioms" below).
* The reading of the Python code: the code is not executed; each definition cites the lines
  it was transcribed from and names its simplifications.
* Semantics of torch/numpy/scipy/json primitives as stated in the definitions' comments.

### Axioms

No axiom is added by this development. Theorems about exact real numbers use the axioms of the
standard library's `Reals`; everything else is closed under the global context. The list is
produced by `tools/axioms.py` on a built tree. The axioms that occur:

* `ClassicalDedekindReals.sig_forall_dec`, `ClassicalDedekindReals.sig_not_dec`,
  `FunctionalExtensionality.functional_extensionality_dep` (all from `Reals`).

<!-- axioms:begin -->
* closed under the global context: C01_default_tiling_is_periodic, C01_default_size, C02_from_pattern_accepts_iff, C02_from_pattern_rejects, C02_from_pattern_result, C02_from_pattern_dict, C02_dict_rectangle_accepted, C03_pattern_translation_consistent, C03_shift_permutes_sites, C04_pattern_resolves_vertices, C04_same_site_iff_same_label, C05_dict_pattern_always_fails, C49_explicit_map_wins, C05_dict_pattern_refuted, C49_pattern_overrides_refuted, C06_shipped_tilings, C06_bipartite_sublattices, C07_roundtrip_1d, C08_roundtrip_legacy, C08_lines_row_major, C09_meaning_real, C09_meaning_complex, C09_order_irrelevant, C50_basis_roundtrip, C50_basis_scalar_refuted, C10_write_read_regular, C10_default_states_are_regular, C10_pattern_states_are_regular, C10_bipartite_refuted, C11_read_index_order, C11_writer_ignores_aux_seq, C11_write_read_aux_refuted, C13_move_is_local_update, C13_move_succeeds_iff, C13_invalid_direction, C13_regular_states, C14_site_order_irrelevant, C51_move_depends_on_lattice_only, C15_iteration_schedule, C15_moves_never_fail, C15_run_stops, C15_run_total, C16_warmup_bound_refuted, C16_warmup_count, C20_truncated_factors, C20_biorthogonal_full, C20_biorthogonal_nz, C20_nz_width, C20_same_projector, C20_insertion_truncates, C20_insertion_exact, C20_idempotent, C23_accepted_was_evaluated, C23_failed_step, C23_sgd_same, C21_history_invariant, C21_bounded_and_synchronized, C21_step_extends, C21_step_adds_last_pair, C24_trial_restores, C24_trial_with_gradient_restores, C24_add_grad, C24_step_moves_along_direction, C24_no_fixed_point_refuted, C24_wrong_loss_refuted, C24_fd_restores, C24_fd_quotients, C24_fd_exception_refuted, C54_failed_first_step_refuted, C54_failed_step_pair_refuted, C55_step_decreases, C55_small_step_refuted, C46_fixed_step, C46_searched_step_partial, C46_buffer_after_steps_partial, C46_momentum_refuted, C12_extend_embeds, C12_too_small_raises, C12_contractions_kept, C56_failed_extension_refuted, C56_failed_extension, C44_extend_resizes, C44_clone_independent, C44_detach_preserves, C44_small_corner_refuted, C44_small_corner_raises, C57_second_extension_refuted, C57_same_type, C33_cycles_and_parity, C33_other_input_rejected, C33_multiplicative, C29_projector_partial, C29_B2_annihilated, C29_B2_refuted, C30_sum_of_projections, C30_unknown_rejected, C30_idempotent_partial, C30_idempotent_refuted, C30_state_symmetrized, C28_options_set, C28_dtype_rejected, C28_unknown_rejected, C28_move_sequence_refuted, C34_orbit, C34_partition, C34_charge_constant, C34_basis, C34_basis_charges, C34_wrong_charges_rejected, C34_complete, C34_physical_dim_refuted, C47_parse, C47_fill, C47_order, C47_import, C47_import_square, C47_import_fix, C47_import_bonds, C47_missing_group, C47_fix_on_zero_based_refuted, C47_fix_repeated_refuted, C38_operator, C38_defined, C38_bonds_nn, C38_bonds_nnn, C38_energy, C39_exchange_partial, C39_uniform_partial, C39_average_refuted, C48_operator_partial, C48_documented_refuted, C58_two_site, C58_four_times_partial, C58_per_site_refuted, C59_half_partial, C59_per_site_refuted, C60_four_site, C60_c4v, C61_energy, C62_ring_exchange, C36_corner_LU, C36_corner_LU_open, C36_corner_RU, C36_corner_RU_open, C36_corner_RD, C36_corner_RD_open, C36_corner_LD, C36_corner_LD_open, C65_halves_UP, C65_halves_LEFT, C65_halves_DOWN, C65_halves_RIGHT, C65_absorb_UP, C65_absorb_LEFT, C65_absorb_DOWN, C65_absorb_RIGHT_partial, C65_absorb_RIGHT_dl, C65_absorb_RIGHT_raises, C65_absorb_RIGHT_refuted, C36_rdm2x1, C36_rdm1x2, C36_rdm1x1_partial, C63_one_site_partial, C63_one_site_operator_partial, C63_one_site_refuted, C63_two_sites_row, C63_two_sites_column, C63_diagonal, C63_antidiagonal, C63_plaquette, C63_plaquette_open, C63_plaquette_refused, C64_mpo_2x2, C64_mpo_3x1_partial, C64_mpo_3x1_refuted, C64_mpo_1x3_refuted, C64_mps_row, C64_mps_column, C64_mps_antidiagonal, C35_contraction, C35_plain, C35_rejected, C35_mismatch_refuted, C45_generated, C45_rejected, C45_absorbed, C40_transposed, C40_symmetric, C40_operators_refuted, C66_dimers, C66_rows_refuted, C25_ad_file_holds_best, C25_sgd_file_holds_best, C25_fd_file_holds_best, C25_mod_file_holds_best, C25_mod_file_as_good, C25_all_evaluations_refuted, C25_resumed_refuted, C26_pairing_refuted, C26_mod_loss_lags_one_step, C26_fd_loss_lags_one_step, C26_wolfe_refuted, C26_mod_resume_continues, C26_fd_resume_continues, C27_keeps_newest, C27_optimizer_continues, C27_unchanged, C27_no_coefficients, C27_first_checkpoint_refuted, C27_size_zero_refuted, C27_torch_keeps_newest, C27_torch_ro_refuted, C25_step_records, C71_step_starts_current, C71_regauge_refuted, C71_env_error_refuted, C71_post_proc_refuted, C43_symmetric_env, C43_double_layer, C43_corner, C43_step, C43_only_hermitian, C43_qr_real, C43_qr_row, C43_random_corner, C43_qr_refuted, C43_random_init_refuted, C37_density, C37_value, C37_unchanged, C37_unchanged_positive, C37_positive_part, C37_expectation_real, C37_no_cast_failure, C37_rdm1x1_partial, C37_rdm2x1, C37_rdm1x2, C37_rdm2x2_NNN_11, C37_rdm2x2_NNN_1n1, C37_rdm2x2_legacy, C37_rdm2x2_oe, C37_no_open_site, C37_complex_refuted, C37_trace_refuted, C37_negative_refuted, C37_abelian_refuted, C41_ipeps, C41_ipeps_dtype, C41_dtype_refuted, C41_1s_q, C41_d2, C41_d2_dtype_refuted, C41_lc_1site_pg, C41_lc_single_refuted, C41_lc_function_refuted, C41_lc_bp_refuted, C41_trgl_refuted, C41_kagome_generic, C41_kagome_pg, C41_kagome_flags_refuted, C41_kagome_legacy_refuted, C41_kagome_pg_lc_partial, C41_kagome_pg_lc_refuted, C41_kagome_grad_refuted, C41_kagome_create, C42_real_partial, C42_normalized, C42_order, C42_order_refuted, C42_complex_refuted, C42_complex_coeffs_refuted, C42_sizes, C42_sizes_raise, C42_sizes_refuted, C42_bond_partial, C42_bond_refuted, C67_onsite_partial, C67_symmetric, C67_irreps, C67_pairing_refuted, C67_lengths_refuted, C67_bond_sites, C68_svd_gradient, C68_svd_gradient_regularised, C68_damping, C68_eig_gradient, C68_eig_gradient_regularised, C68_svdsymeig_gradient_regularised, C68_regularised_refuted, C68_gradient_of_U_alone_refuted, C68_truncated_refuted, C69_still_decomposition, C69_pivot_positive, C69_phases_fixed, C69_rectangular_refuted, C70_symmetries, C70_1x1, C70_1x1_sl_partial, C70_2x1, C70_2x1_sl, C70_3x1, C70_3x1_sl, C70_2x2_NN, C70_2x2_NN_sl, C70_2x2_NNN, C70_2x2_NNN_sl, C70_2x2, C70_3x2_partial, C70_3x2_reflected, C70_derivative, C70_aux_1x1, C70_aux_2x2_NN_partial, C70_aux_2x2_partial, C70_1x1_sl_refuted, C70_aux_2x2_refuted, C70_aux_2x2_NN_refuted, C72_sites, C72_rows_partial, C72_columns_partial, C72_columns_reflected, C72_edges_refuted, C72_complex_refuted, C72_order_refuted, C75_new, C75_ctmrg, C75_obc_partial, C75_obc_refuted, C75_prod_partial, C75_prod_scale_refuted, C75_overlap, C75_single_layer, C75_const_refuted, C75_random, C75_c4v_obc, C75_c4v_obc_sl, C75_c4v_pbc, C75_c4v_given, C75_c4v_given_refuted, C77_energy_BP, C77_energy_1x1, C77_lowmem_partial, C77_lowmem_refuted, C77_lambda_partial, C77_lambda_refuted, C77_jq, C77_ladders, C77_ising, C77_aklt_partial, C77_aklt_refuted, C77_ring_exchange, C78_gell_mann, C78_gell_mann_real_refuted, C78_cartan_weyl, C78_c1, C78_c2, C78_kagome, C78_hermitian, C78_chiral, C78_chiral_ops, C78_fmap, C78_aklt, C78_aklt_diagonal, C79_hamiltonian_partial, C79_real_dtype, C79_observables, C79_correlations_partial, C80_rdm2x2, C80_rdm2x1, C80_rdm1x2, C80_up_triangle, C80_up_order_refuted, C80_dn_triangle, C80_trace1x1_partial, C80_trace1x1_refuted, C80_rdm1x1_refuted, C81_lattice, C81_energy, C81_spin_energy, C81_P_up, C81_correlations_partial, C81_P_dn_refuted, C81_magnetisation, C81_generators, C81_su3_energy, C81_su3_observables, C81_su3_eval_obs_partial, C82_onsite, C82_project, C82_project_unknown, C82_parts, C82_state, C82_noise, C82_extend, C82_io, C82_checkpoint, C82_checkpoint_refuted, C82_extend_generic_refuted, C82_lc_update_refuted, C82_lc_order_refuted, C82_lc, C83_d2_state, C83_d2_noise, C83_d2_extend, C83_d2_checkpoint, C83_d2_io, C83_d2_read_other, C83_d2_symmetry_refuted, C83_d2_read_refuted, C83_kagome_physical_dim, C83_kagome_extend_partial, C83_kagome_extend_refuted, C83_kagome_io, C83_kagome_read_refuted, C84_rsvd, C84_rsvd_exact, C84_truncated_svd_rsvd, C84_sample, C84_vnum_refuted, C85_symeig, C85_svdsymeig_partial, C85_whole, C85_right_vectors_refuted, C86_symmetric_partial, C86_hermitian_refuted, C86_leading_refuted
* `ClassicalDedekindReals.sig_forall_dec`, `ClassicalDedekindReals.sig_not_dec`, `FunctionalExtensionality.functional_extensionality_dep`: C17_converged_iff, C52_two_norm_refuted, C23_accepted_step, C23_terminates, C23_sgd_accepted_step, C23_infinite_loss_refuted, C22_two_loop_recursion, C22_secant, C22_positive_definite, C22_step_direction, C53_further_iterations_refuted, C31_spin_algebra, C31_bipartite_rotation, C32_exchange_iff, C32_anisotropic_refuted, C38_exchange_symmetric, C25_comparisons, C73_channel, C73_cell_refuted, C73_seam, C73_seam_refuted, C73_c4v, C73_c4v_two_rows, C73_order_refuted, C74_c4v, C74_generic, C74_full, C74_order_refuted, C74_sizes_refuted, C74_transposed_refuted, C76_operator_partial, C76_projector_refuted, C76_documented_refuted, C76_rotated, C77_spin, C81_chirality_up_refuted, C81_energy_1site_refuted
* `ClassicalDedekindReals.sig_forall_dec`, `FunctionalExtensionality.functional_extensionality_dep`: C18_svd_cut, C18_svd_arnoldi_cut, C18_eig_cut, C18_eig_arnoldi_cut, C18_moved_cut_separates, C18_whole_multiplet_refuted, C19_svd_sizes, C19_eig_sizes, C19_arnoldi_sizes, C19_propack_refuted, C19_lobpcg_refuted, C78_chiral_refuted, C79_chiral_sign_refuted, C79_correlations_refuted, C81_up_labels_refuted
<!-- axioms:end -->

The theorems on projectors use matrices of mathcomp over an arbitrary `numClosedFieldType`; they are
closed under the global context (mathcomp's sealed definitions are not axioms).

## What is modelled, and what is not

Modelled, with the citations in the files:

| files | code |
|-------|------|
| `Lattice`, `Tilings` | ipeps/ipeps.py `from_pattern`, `IPEPS.__init__`, `site`; maps of the documentation and `ipeps_1s_Q.py` |
| `Tensor`, `TensorIO`, `Text` | ipeps/tensor_io.py; numpy/torch `zeros`, indexing, `permute`, `reshape`; `str.split`, printing and reading integers |
| `StateIO` | ipeps/ipeps.py `read_ipeps`, `_write_ipeps_json`, `write_ipeps` |
| `Ctm` | ctm/generic/ctmrg.py `run`, `ctm_MOVE`; tensor selection of ctm_components.py and ctm_projectors.py. The algebra of absorption and projectors is an oracle applied to the selected tensors |
| `Conv` | ctm/generic/env.py `ctmrg_conv_specC` |
| `Trunc` | truncation in linalg/custom_svd.py, linalg/custom_eig.py; the decompositions are parameters |
| `Proj` | ctm/generic/ctm_projectors.py `ctm_get_projectors_from_matrices` |
| `Armijo`, `Lbfgs`, `FdGrad`, `Sgd` | optim/lbfgs_modified.py, optim/sgd_modified.py, `grad_fd`; the loss is an oracle that may raise; torch's `_strong_wolfe` is a parameter |
| `OptRun` | optim/ad_optim.py, ad_optim_lbfgs_mod.py, ad_optim_sgd_mod.py, fd_optim_lbfgs_mod.py `optimize_state`: closures, loss history, state file, checkpoints, epochs, exceptions, `load_optimizer_state_`. Loss, gradient, post-processing and torch's optimizers are oracles; the list `w_evals` of evaluations is a ghost. Not: the schedulers, `obs_fn`, logging |
| `RdmC4v` | ctm/one_site_c4v/rdm_c4v.py: every function that is called with (state, env), as functions of C, T and the site tensor, before `_sym_pos_def_rdm`. Left out: devices, logging, `verbosity > 0` of `ddA_rdm1x1` |
| `CtmC4v` | ctm/one_site_c4v/ctm_components_c4v.py, ctmrg_c4v.py `run`, `run_dl`, `ctm_MOVE_dl`, `ctm_MOVE_sl`, `ctm_MOVE_QR_sl`, `_move_normalize_c`, env_c4v.py `init_random`. Oracles: the truncated decomposition, QR, norms, the FPCM acceleration and the convergence check; a division by zero is an error |
| `RdmPost` | ctm/generic/rdm.py `_cast_to_real`, `_sym_pos_def_matrix`, `_sym_pos_def_rdm`, ctm/generic_abelian/rdm.py:11-45, and the functions of `Rdm` with this last step. The eigensolver is an oracle, assumed right where it returns; a division by zero is an error; `matmul` of a complex and a real matrix raises. Not: the gradient, which skips the positive part (`torch.no_grad`) |
| `StateCk` | `get_parameters`, `get_checkpoint`, `load_checkpoint` of ipeps/ipeps.py, ipeps_1s_Q.py, ipeps_d2.py, ipeps_lc.py, ipeps_lc_bp.py, ipeps_trgl_pg.py, ipess_kagome.py, and `store_checkpoint`. `torch.save`/`torch.load` is the identity on Python values; building on-site tensors is an oracle. Not: devices, the abelian (yastn) classes |
| `LcIO` | ipeps/ipeps_lc.py: constructor, `build_onsite_tensors`, `write_ipeps_lc_1site_pg`, `from_json_str`, `read_ipeps_lc_1site_pg`; ipeps/ipeps_lc_bp.py: constructor, `build_onsite_tensors`, writer and reader. JSON encoding of the object is the identity; printing and parsing of numbers are parameters; normalization of coefficients is an oracle. Not: `add_noise`, `clone`, `move_to`, devices |
| `DecompGrad` | linalg/svd_gesdd.py `fix_svd_signs`, `SVDGESDD.backward` (torch >= 1.8.1 variant; the same text in svd_af.py and svd_propack.py), shapes of `SVDGESDD.forward`; linalg/svd_symeig.py `SVDSYMEIG.backward`; linalg/eig_sym.py `SYMEIG.backward`. Scalars: any numerically closed field, so no rounding. A derivative is the first order part of a curve of factorizations (dual numbers); that such a curve exists is assumed. Not: the pre-1.8.1 variants, `v1_11_backward`, the prints except that they raise, rsvd |
| `Extend` | `extend_bond_dim`, `ENV.extend`, `clone`, `detach` |
| `Perm`, `Su2`, `C4v` | groups/permutations.py, groups/su2.py, groups/pg.py:3-108, `to_ipeps_c4v` |
| `Config` | config.py `get_args_parser`, `configure` with the real option table |
| `U1Basis`, `SymTen` | u1sym/basis.py orbits and bases, su2sym/sym_ten_parser.py |
| `Plaq` | plaquette operators and energies of models/j1j2.py, hb.py, jq.py, coupledChains.py, coupledLadders.py, ising.py |
| `Net` | `torch.einsum`/`opt_einsum.contract`, `tensordot`, `view`, `permute` as sums over indices; the contraction path is not modelled |
| `Corners` | ctm/generic/ctm_components.py corners and halves of the 4x4 network, absorption in ctm/generic/ctmrg.py:324-780 (modes sl and dl), without the normalization |
| `Rdm` | ctm/generic/rdm.py `rdm1x1`, `rdm2x1`, `rdm1x2`, `rdm2x2_NNN_11`, `rdm2x2_NNN_1n1`, `rdm2x2` (opt_einsum and plain), `eval_mpo_*`, `_get_mps_tn`, `_get_id_tn`; without `_sym_pos_def_rdm`. Not: `rdm2x3_trglringex`, `rdm3x2_trglringex`, `norm_*`, `aux_rdm*` |
| `Unroll` | oe_ext/oe_ext.py `contract_with_unroll`, `_contract_with_unroll_oe`; `torch.empty` holds arbitrary values. Not: cuquantum, the expression prepared from shapes |
| `Weights` | ipeps/ipeps.py `IPEPS_WEIGHTED.generate_weights`, `weight`, `absorb_weights`; not `gauge` |
| `Corr` | ctm/generic/corrf.py `get_edge`, `get_edge_2`, `apply_edge`, `apply_TM_1sO`, `apply_TM_2sO_1sChannel`, `apply_TM_2sO_2sChannel`, `corrf_1sO1sO`, `corrf_2sOH2sOH_E1`, `corrf_2sOV2sOV_E2`; the singular value decomposition and the largest absolute value are parameters; not transferops |
| `CorrC4v` | ctm/one_site_c4v/corrf_c4v.py: all functions, as functions of C, T and the site tensor; division, the largest modulus and torch.svd are parameters. Left out: devices, dtypes, printing |
| `Transfer` | ctm/generic/transferops.py, ctm/one_site_c4v/transferops_c4v.py: all functions; ctm/generic/corrf.py:278-362. scipy's eigs is a parameter taking the operator, its dimension and the number of values; numpy.argsort and torch.eig are parameters; values are pairs of real numbers, the operator acts on lists of scalars. Left out: start vectors, devices, dtypes, printing |
| `EnvInit` | ctm/generic/env.py:75-107 (ENV.__init__), 235-801 (init_env and all its variants, init_prod_overlap); ctm/one_site_c4v/env_c4v.py:184-195, 257-387. Parameters: the largest absolute value of a tensor, random and uninitialized tensors, the eigen-decomposition and the outcome of the hermiticity test. A division by zero is an error here (the code fills the tensor with not-a-number). Left out: init_prod and init_random of the C4v variant (the latter is in `CtmC4v`), printing, devices |
| `Aklt` | models/akltS2.py:37-49 (AKLTS2.get_h), 193-209 (AKLTS2_C4V_BIPARTITE.get_h), over exact reals, built on the spin matrices of `Su2`. Not modelled: energies, observables and correlation functions of this file |
| `Bip` | models/j1j2.py:103-143, 172-174, 187-222, 582-596, 618-640, 664-686; models/j1j2lambda.py:84-94, 122-125, 149-163; models/jq.py:517-539, 581-583; models/coupledLadders.py:353-360, 411-431; models/akltS2.py:244-246; models/ising.py:247-252. Operators are arguments (the ones of groups/su2.py are shown to qualify, `C77_spin`), reduced density matrices and the third-neighbour correlation are oracles, energy_1x1_tiled has the same body as energy_1x1_lowmem up to the oracles. `_cast_to_real` is left out |
| `Su3` | groups/su3.py:110-246; models/su3_kagome.py:73-92, 139, 191; models/SU3_chiral.py:22-86, 104; models/SU3_AKLT.py:14-55. Scalars are an abstract ring with 1/2, 1/3, i, sqrt 3; a real dtype stores real parts; matrix products of operands of different dtypes raise. Left out: devices, the check of (p,q) |
| `Kag` | models/spin_half_kagome.py:30-122, 330-353 (operators only); models/spin1_kagome.py:22-31; groups/su2.py SS, S. Spin matrices are parameters (their values: `Su2`); a dtype is one flag, complex or real; `!= 0` is an oracle `isz`. Left out: Id3_t, j2, j2sq (not implemented in the code) |
| `RdmKag` | ctm/pess_kagome/rdm_kagome.py:12-610, 766-1412 up to `_sym_pos_def_rdm` (C37). The physical dimension of a spin is a parameter. Left out: devices, logging, _cast_to_real, the unused _old_rdm1x1_kagome, rdm2x2_nnn_1..3; all tensors a function uses are looked up before the first contraction |
| `KagE` | models/spin_half_kagome.py:133-152, 176-215, 226-239, 315-351, examples/kagome/optim_spin_half_kagome.py:170-187, models/su3_kagome.py:94-163, 171-213, 244-324; the contractions rdm2x2_up_triangle_open, rdm2x2_dn_triangle_with_operator, trace1x1_dn_kagome and rdm2x2_kagome are parameters (C80). Left out: eval_C1, eval_C2, printing, devices |
| `Ipess` | ipeps/ipess_kagome.py: build_onsite_tensors, the point-group class (constructor, load_checkpoint, add_noise, extend_bond_dim, symmetrisation, files), extend_bond_dim of the generic class, build_elem_tensors and update_ of the linear combinations. Oracles: the largest modulus and the random numbers. Left out: dtypes, devices, normalisation on writing, the numbers in the files, the files and checkpoints of the generic and of the linear-combination classes |
| `D2Kag` | ipeps/ipeps_d2.py: all; ipeps/ipeps_kagome.py: all. The constructor, files and enlargement of IPEPS are those of `Lattice`, `StateIO`, `Extend`. Oracles: the largest modulus, the rounded cube root. Left out: devices, gradients, rounding. |
| `Rsvd` | linalg/svd_rsvd.py: rsvd; linalg/custom_svd.py: truncated_svd_rsvd without keep_multiplets. Oracles: the random matrix, torch.linalg.qr, the singular value decomposition; both are assumed correct for the sizes that occur. `s` is positive when q > 1 (python divides by it), `vnum` is not negative. Left out: the warning of QR_check, rounding, gradients, devices. |
| `Sym` | forward functions SYMEIG (linalg/eig_sym.py), SYMARNOLDI (eig_arnoldi.py), SVDSYMEIG (svd_symeig.py), SVDSYMARNOLDI (svd_arnoldi.py). Oracles: the eigenpairs of eigh, symeig or eigsh, and the permutation of torch.sort. Left out: rounding, devices, what is saved for gradients. |
| `Lobpcg` | linalg/eig_lobpcg.py: SYMLOBPCG.forward. Oracle: torch.lobpcg. Left out: rounding, tolerances of the iteration. |

Not modelled: floating-point rounding (except where scalars are abstract), GPU/device placement, autograd
(gradients are values returned by oracles, except in `DecompGrad`), logging, timing, profiling, checkpointing of
autograd graphs, the Python object system beyond the fields used, concurrency (the code
has none), the JSON codec itself (the object that is encoded is modelled), symmetric-tensor
(yastn) variants, kagome/triangular/honeycomb environments, the remaining models.

In `Plaq` reduced density matrices are oracles: an energy is the elementwise product of an
operator tensor with the reduced density matrix, summed. The specification is the expectation value
of the lattice Hamiltonian on a finite periodic lattice with an arbitrary linear functional
invariant under the tiling; the infinite lattice itself is not formalised.

## Findings

Places where the faithful model violates the documented or expected behaviour. Those with a
theorem name are machine checked; the others were noticed while reading.

Tilings and files
* A dictionary pattern always raises KeyError in `IPEPS.__init__` (`C05_dict_pattern_refuted`).
* An explicit `vertexToSite` wins over `pattern`, contrary to the docstring (`C49_pattern_overrides_refuted`).
* Writing the documented bipartite two-site state stores a 2x1 cell, i.e. stripes (`C10_bipartite_refuted`).
* `write_ipeps` ignores `aux_seq` (and `tol`) (`C11_write_read_aux_refuted`).
* The sparse basis format cannot read back a rank-0 tensor (`C50_basis_scalar_refuted`).
* `read_ipeps` has a misspelt key (`sideId`) for sites without `siteId`; an unknown "format" leaves the
  tensor of the previous site in place. (Reading only.)

* The triangular classes read `elem_tensors` from the checkpoint, which does not have it: loading always raises KeyError
  (`C41_trgl_refuted`). `IPEPS_LC_BP.load_checkpoint` and `load_checkpoint_lc_1site_pg` (used by
  examples/j1j2/optim_j1j2_u1_c4v.py) always raise (`C41_lc_bp_refuted`, `C41_lc_function_refuted`).
* `IPESS_KAGOME_PG_LC.load_checkpoint` raises unless both SYM_UP_DOWN and SYM_BOND_S are set
  (`C41_kagome_pg_lc_refuted`), and leaves `requires_grad` set (`C41_kagome_grad_refuted`);
  `create_from_checkpoint` works (`C41_kagome_create`). Loading with other SYM flags than those of the stored state
  silently gives another state (`C41_kagome_flags_refuted`); legacy files with three bond tensors raise NameError
  (`C41_kagome_legacy_refuted`).
* `load_checkpoint` does not bring the dtype back to real (`C41_dtype_refuted`) or ignores it
  (`C41_d2_dtype_refuted`); a single coefficient for all elementary tensors is accepted by the constructor of
  `IPEPS_LC_1SITE_PG` and refused on loading (`C41_lc_single_refuted`).
* Linear-combination files: complex elementary tensors and coefficients are written as one token "(a+bj)" and cannot
  be read (`C42_complex_refuted`, `C42_complex_coeffs_refuted`); the writer permutes indices by `aux_seq` and neither stores it nor
  does the reader use its own (`C42_order_refuted`); only one auxiliary size is stored, so unequal sizes are silently
  enlarged or reading raises (`C42_sizes_refuted`, `C42_sizes_raise`); entries of an elementary tensor's description
  besides "meta" are dropped. `IPEPS_LC_BP` with A_2 tensors and real bond tensors cannot be built
  (`C42_bond_refuted`).
* Coefficients go to A_1 tensors first, then to A_2 tensors, not in the order of the list (`C67_pairing_refuted`); one
  coefficient is silently used for all tensors (`C67_lengths_refuted`). `IPEPS_LC_1SITE_PG.move_to` and
  `IPEPS_LC_BP.move_to` assign into a tuple (reading only).

CTMRG and linear algebra
* `ctm_warmup_iter` is a lower bound, not an upper bound, of the warm-up (`C16_*`).
* The convergence check uses the maximum over corners rather than the documented norm (`C52_two_norm_refuted`).
* Truncation splits a multiplet that fills all kept values (`C18_whole_multiplet_refuted`).
* `truncated_svd_propack` returns untruncated factors, `truncated_eig_symlobpcg*` index past the end (`C19_*_refuted`);
  SVDARNOLDI relies on the order of ARPACK's values. (Last: reading only.)
* `ENV.extend` slices with `env.chi` and broadcasts 1x1 corners (`C44_*`), and takes its dtype from the global
  configuration (`C57_*`). `init_env("CONST")` is documented but raises ValueError; `init_from_ipeps_obc`
  contracts A with A instead of its conjugate. (Last two: reading only.)
* The right move in the mode sl views the half-column with the dimension of the left bond (ctmrg.py:759) and raises
  when the two differ (`C65_absorb_RIGHT_raises`, `C65_absorb_RIGHT_refuted`).
* `rdm1x1` in the mode dl does not map the vertex to the unit cell and raises KeyError (`C63_one_site_refuted`).
* `eval_mpo_rdm1x3_oe` connects ket and bra of the third site to the same index (rdm.py:1866; used by models/czx.py:274)
  (`C64_mpo_1x3_refuted`); `eval_mpo_rdm3x1_oe` views the third half-column with a dimension of the second site
  (rdm.py:1935) (`C64_mpo_3x1_refuted`).
* `rdm2x2` without opt_einsum passes `force_cpu` to `rdm2x2_legacy`, which does not take it (TypeError); `_get_mps_tn`
  picks wrong labels for three or more sites; `_sym_pos_def_rdm` drops its keyword arguments. (Reading only.)
* `contract_with_unroll` accepts an unrolled index of unequal dimensions and drops the excess entries, where the plain
  contraction raises (`C35_mismatch_refuted`). A dimension 0 is dropped from the shapes it prepares (oe_ext.py:575); the
  cuquantum variants contain `pdb.set_trace()` and return an undefined name. (Last two: reading only.)
* Correlation functions contract the first index of an operator with the ket: they evaluate the transposed operators
  (`C40_operators_refuted`; corrf.py:420). They return `dist`+1 entries, not `dist`; the first two-site entry has distance 2
  (`C40_transposed`, `C66_dimers`).
* `apply_TM_2sO_2sChannel` drops the singular values of the operator (corrf.py:728; compare line 966), so
  `corrf_2sOV2sOV_E2` evaluates another operator (`C66_rows_refuted`). The ValueError of `apply_edge` cannot be
  raised, its message adds a string and a size (TypeError). (Last: reading only.)
* The correlation functions of the C4v state also evaluate the transposed operators (`C72_order_refuted`). Two-site
  operators are split with V^T in place of V^dagger (corrf_c4v.py:323, 484): wrong for complex operators, also hermitian
  ones (`C72_complex_refuted`). `get_edge_L` and `apply_edge_L` (marked "TODO check complex") put T upside down, so for
  complex states the edges of two rows are not those drawn (`C72_edges_refuted`, `C72_columns_reflected`); with the
  environment of `C70_1x1_sl_refuted` and a projector this changes an entry from 162/9989 to 162/4429 (computed with the
  model, not kept as an example since it takes a minute).
* Spectra of transfer operators: `get_Top_spec` goes lX (lY) sites along x (y), which is no period for the vertical
  directions of the 8-site tiling (`C73_cell_refuted`). `apply_TM_0sO` attaches the sites of a cell in reversed order
  for the directions right and down, so `get_Top_w0_spec` diagonalizes another operator if the cell has three sites in
  that direction (`C73_seam_refuted`); its second dimension is that of the tensor above (left of) the first site, not
  of the one it is attached to. `get_Top2_spec_c4v` (and both `get_EH_spec_Ttensor`) reverse the order in which the
  solver returns the values: they are sorted only if it returns them ascending (`C73_order_refuted`).
* Entanglement spectra. `get_full_EH_spec_Ttensor` takes the sites of the ring in the order of `d_grow`, which for the
  directions left and down runs against the orientation of the tensors: with three or more different sites the ring is
  joined in reversed order (`C74_order_refuted`). The sizes of its final view are those of the tensor before the
  permutation, so rows of sites with different bonds end in an error (`C74_sizes_refuted`). The reduced density matrix
  has the eigenvalues of sigma_R sigma_L^T; code and documentation use sigma_R sigma_L, which for complex states is
  another spectrum (`C74_transposed_refuted`: values 9 and 1 in place of 3 and 3). `get_EH_spec_Ttensor` reverses the
  values as `get_Top2_spec_c4v` does. By reading only: `torch.eig` does not exist in PyTorch 2, and verbosity > 0 uses
  the undefined name `d`.
* Starting environments (C75): `init_from_ipeps_obc` contracts the ket with itself, not with its conjugate, while the
  C4v variant and all other options conjugate (`C75_obc_refuted`, `C75_c4v_obc`). `init_prod` divides the left, lower
  and right vectors by their largest absolute value but not the upper one (`C75_prod_scale_refuted`);
  `init_prod_overlap` scales all four. The documented option `"CONST"` raises ValueError (`C75_const_refuted`).
  `init_env(..., C_and_T=...)` of the C4v environment writes the given corner into the old one, so old elements
  survive outside the block, while the half-row tensor is cleared first (`C75_c4v_given_refuted`).
* The AKLT operator (C76): `AKLTS2.get_h` multiplies the documented polynomial by 1/14 as a whole; the result is twice
  the projector on total spin 4 (`C76_operator_partial`, `C76_projector_refuted`), while the documented formula, with
  1/14 only in the first term, is no multiple of that projector (`C76_documented_refuted`).
* J1J2_C4V_BIPARTITE.energy_1x1_lowmem and energy_1x1_tiled give the staggered field the opposite sign to energy_1x1
  and to the documentation: `hz_2x1_rot` rotates its first spin (`C77_lowmem_partial`, `C77_lowmem_refuted`).
* J1J2LAMBDA_C4V_BIPARTITE: with hz, the plaquette operator contains the product of four spins SZ.SZ.SZ.SZ
  instead of a sum of staggered fields (`C77_lambda_partial`, `C77_lambda_refuted`).
* AKLTS2_C4V_BIPARTITE.energy_1x1 is the energy of one bond, half of the energy per site (`C77_aklt_partial`,
  `C77_aklt_refuted`).
* SU3_DEFINING with a real dtype: J_Gell_Mann stores zero matrices for lambda_2, lambda_5 and lambda_7
  (`C78_gell_mann_real_refuted`), and C2 raises (`C78_c2`).
* SU3_CHIRAL.h_triangle: exchange_bond_triangle is filled by assignments, so that three sites in the same state get j1 instead
  of 3 j1; energies of states with such components are too small by 2 j1 times their weight (`C78_chiral`, `C78_chiral_refuted`).
* S_HALF_KAGOME, S1_KAGOME: the docstring has - J_trip (S x S).S, the tensor has + jtrip (`C79_chiral_sign_refuted`;
  `C79_hamiltonian_partial` proves every other term). SS_dn_ij and SS_up_ij of eval_obs are expectation values of j1 S_i.S_j with a
  Dzyaloshinskii-Moriya term whose sign on bonds 12 and 02 is opposite to the Hamiltonian's (`C79_correlations_partial`,
  `C79_correlations_refuted`). eval_obs(disp_corre_len=True) calls eval_corr_lengths, a local function defined after the return
  statement: UnboundLocalError.
* rdm2x2_up_triangle_open (kagome): the indices are in the order s1, s2, s0, not s0, s1, s2 (`C80_up_triangle`, `C80_up_order_refuted`;
  a cyclic shift, so chiral and symmetric operators have the right expectation values). rdm1x1_kagome overwrites the permuted tensor
  by a view of the unpermuted one: the ket is scrambled as soon as a bond has dimension 2 (`C80_rdm1x1_refuted`).
  trace1x1_dn_kagome looks up its last corner at the vertex given: KeyError outside the unit cell (`C80_trace1x1_refuted`).
  rdm2x2_nnn_1..3 call enlarged_corner with an unknown keyword csites: TypeError (not modelled).
* Kagome energies: P_dn passes operator= to a function without that parameter: TypeError for every state (`C81_P_dn_refuted`).
  SS_up_01, SS_up_12, SS_up_02 are the bonds 1-2, 2-0, 1-0 of the up triangle (`C81_correlations_partial`, `C81_up_labels_refuted`).
  The SU(3) chirality of the up triangle has the wrong sign: trace without transposition (`C81_chirality_up_refuted`).
  energy_1site (SU(3)) takes for the up triangle three spins that form no triangle (`C81_energy_1site_refuted`).
  A, B, C of eval_generators stand for the spins 0, 1, 2 (`C81_generators`).
* Kagome iPESS: IPESS_KAGOME_GENERIC.extend_bond_dim reads self.ververtexToSite and never returns (`C82_extend_generic_refuted`).
  load_checkpoint of old checkpoints with three bond tensors stops with NameError: `SYM_BOND_S` without self (`C82_checkpoint_refuted`).
  IPESS_KAGOME_PG_LC.update_ stores T_d, B_b, B_a next to the cell (0,0) instead of in it: TypeError unless both symmetry flags are set (`C82_lc_update_refuted`).
  With a point group, coefficient k does not multiply basis tensor k: tensors of the irrep come first, then the others times i (`C82_lc_order_refuted`, `C82_lc`).
  Read but not modelled: add_noise of the linear combinations draws from [-1,0) (rand - 1.0); the legacy branch of read_ipess_kagome_generic writes `[keymap[key]]=` and never fills the dictionary.
* `IPEPS_D2SYM` documents A[s,u,l,d,r]=A[s,u,r,d,l] but neither the constructor nor the optimisation imposes it; only `add_noise` does (`C83_d2_symmetry_refuted`).
* `read_ipeps_d2` keeps the tensor at (0,0) and silently replaces the one at (0,1) (`C83_d2_read_refuted`).
* `IPEPS_KAGOME.extend_bond_dim` drops `pattern`, `lX`, `lY`: the cell becomes the bounding box of the stored sites, so that an enlarged checkerboard written to a file is read back as a stripe (`C83_kagome_extend_refuted`).
* `read_ipeps_kagome` with `vertexToSite`, or for a file without "pattern", always raises AttributeError, because `_pattern` is only assigned by the pattern branch of the constructor (`C83_kagome_read_refuted`).
* `rsvd` with `vnum` 0 or 2 makes no decomposition: it returns zeros with k+p instead of k columns; the branch for the eigendecomposition of B B^T is missing (`C84_vnum_refuted`).
* `SVDSYMEIG` and `SVDSYMARNOLDI` multiply the vectors by the signs of the eigenvalues; the sign of 0 is 0, so that V is not orthonormal for singular matrices although `svd_symeig.py` says that V is unitary (`C85_right_vectors_refuted`).
* `SYMLOBPCG` checks M = M^T without conjugation, so that complex Hermitian matrices raise AssertionError (`C86_hermitian_refuted`), and asks for the largest instead of the leading eigenvalues: for diag(-2,1) and k=1 it returns 1 (`C86_leading_refuted`). Its callers pass M M, or M and -M, and so avoid the second.
* Gradients of decompositions are damped by x^2/(x^2+e) for every difference and sum x of singular values: exact only
  for `eps` = 0 (`C68_regularised_refuted`, error bounded by `C68_damping`). `SVDSYMEIG` uses a fixed e = 1e-12 and no
  conjugation.
* svd_gesdd.py:279 asks `(gv is None) and (gv is None)`: without a gradient for V the one for U is ignored
  (`C68_gradient_of_U_alone_refuted`), with diagnostics an undefined name is printed (NameError; in svd_propack.py
  `diagnostics` itself); complex factors without a gradient for U raise TypeError. Autograd passes zeros instead of None by
  default, so this needs `set_materialize_grads(False)`.
* `SVD_PROPACK.backward` applies the formula of the full decomposition to the leading factors only, which is wrong unless the
  rank is at most that number (`C68_truncated_refuted`).
* `SVDGESDD.forward` asks for full factors and multiplies the columns of V by the phases of the columns of U: rectangular
  matrices raise RuntimeError, n = 1 gives m columns for V (`C69_rectangular_refuted`). The final print of
  `SVDAF.backward` uses an undefined `S`; `v1_11_backward` an undefined `gA`. (Last two: reading only.)
* The QR move of the C4v algorithm projects the corner with `P.t()` instead of its adjoint: over complex numbers the new
  corner is not hermitian (`C43_qr_refuted`; real: `C43_qr_real`). `init_random` symmetrizes C but not T, so that the
  first decomposition is that of a matrix that is not hermitian (`C43_random_init_refuted`).
* rdm_c4v.py: `rdm1x1_sl` contracts the upper T with its two environment indices exchanged, which is wrong for
  complex environments, T_ija = T*_jia (`C70_1x1_sl_refuted`; `rdm1x1` is right). `rdm3x2_NNNN` uses the site in the
  middle of the lower row reflected (`C70_3x2_reflected`), which changes complex states (A_1 + i A_2).
  `aux_rdm2x2_NN` and `aux_rdm2x2` return the bonds in another order than drawn, anticlockwise from the upper left
  (`C70_aux_2x2_NN_refuted`, `C70_aux_2x2_refuted`); the permutation that should follow was written for another
  contraction.
* `_sym_pos_def_matrix` with positivity enforced fails for complex matrices with a negative eigenvalue: `U @ torch.diag(D)`
  multiplies a complex and a real matrix (`C37_complex_refuted`). A matrix without positive eigenvalue is divided by zero
  (`C37_negative_refuted`), as is one with imaginary trace (`C37_trace_refuted`). The version for abelian tensors ignores
  `sym_pos_def` (`C37_abelian_refuted`). `_sym_pos_def_rdm` drops its keyword arguments, so `fail_on_check` has no
  effect; it could have none, since the trace of a hermitian matrix is real (`C37_no_cast_failure`). `rdm2x2` with
  `open_sites=[]` raises TypeError (`C37_no_open_site`).

Optimizers
* Armijo search may accept step 0 after an infinite loss (`C23_infinite_loss_refuted`).
* A NoFixedPointError inside the line search leaves displaced parameters (`C24_no_fixed_point_refuted`).
* `max_iter_per_epoch > 1` has no effect (`C53_further_iterations_refuted`); after a failed step the optimizer
  cannot continue (`C54_*`); a small first step is applied without evaluation (`C55_*`).
* The line search of ad_optim_lbfgs_mod.py writes trial states to the state file, later states that are worse
  overwrite them (`C25_all_evaluations_refuted`); a resumed run forgets the best loss and overwrites a better file
  (`C25_resumed_refuted`). The state reached by the last step is neither evaluated nor written by fd_optim_lbfgs_mod.py.
* The loss stored in a checkpoint is that of the parameters one step earlier (`C26_pairing_refuted`,
  `C26_*_loss_lags_one_step`); with the strong Wolfe search it is the loss of the first state of the run
  (`C26_wolfe_refuted`). Resuming continues the run nevertheless (`C26_*_resume_continues`).
  The last checkpoint of a run that stops early has epoch opt_max_iter, `epoch0` of a checkpoint is not used.
* Loss and gradient found by the strong Wolfe search are passed to the next step. They are stale, and the step may go
  uphill, after an EnvError with regauging (`C71_regauge_refuted`), after one without, which leaves a displaced state
  (`C71_env_error_refuted`), and after a post-processing that changes the parameters (`C71_post_proc_refuted`).
  Otherwise, also after a perturbed restart, they are current (`C71_step_starts_current`).
* The first checkpoint of a run cannot be loaded with opt_resume_override_params (`C27_first_checkpoint_refuted`);
  history size 0 keeps the whole history (`C27_size_zero_refuted`); ad_optim.py pads `ro` with None although torch's
  optimizer appends to it (`C27_torch_ro_refuted`). `max_eval` is not updated.
* SGD with momentum and line search negates its momentum buffer in place (`C46_*`).
* A failing `extend_bond_dim` has already changed some sites of its argument (`C56_*`).

Symmetries and models
* `make_c4v_symm_B2` has two signs exchanged: it maps every B2 tensor to zero (`C29_B2_annihilated`, `C30_*`).
* `SU2.SS` with unequal x and y couplings is neither the documented operator nor hermitian (`C32_anisotropic_refuted`).
* `get_basis_upto_D` works for physical dimension 2 only (`C34_physical_dim_refuted`).
* `import_sym_tensors_FIX` silently misreads tables counted from zero and mutates its argument (`C47_*_refuted`).
  linalg/svd_symeig.py:102 reads su2 tables with the other importer. (Last: reading only.)
* J1-J2-J3 energies evaluate the third-neighbour term at (0,0) for every site (`C39_average_refuted`).
* The Ising plaquette term has the opposite sign of `q` (`C48_documented_refuted`).
* `HB.energy_2x2_4site` is four times, `COUPLEDCHAINS.energy_2x2_4site` half the energy per site (`C58_per_site_refuted`, `C59_per_site_refuted`).

Configuration
* `--CTMARGS_ctm_move_sequence` sets a list of characters (`C28_move_sequence_refuted`); names of program options containing
  "__" are lost or misplaced; `GLOBALARGS_torch_dtype` accepts no text.
