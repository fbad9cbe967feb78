{
 "claims": [
  {
   "property": "C01",
   "status": "proved",
   "theorems": [
    "C01_default_tiling_is_periodic",
    "C01_default_size"
   ],
   "note": ""
  },
  {
   "property": "C02",
   "status": "proved",
   "theorems": [
    "C02_from_pattern_accepts_iff",
    "C02_from_pattern_rejects",
    "C02_from_pattern_result",
    "C02_from_pattern_dict",
    "C02_dict_rectangle_accepted"
   ],
   "note": ""
  },
  {
   "property": "C03",
   "status": "proved",
   "theorems": [
    "C03_pattern_translation_consistent",
    "C03_shift_permutes_sites"
   ],
   "note": ""
  },
  {
   "property": "C04",
   "status": "proved",
   "theorems": [
    "C04_pattern_resolves_vertices",
    "C04_same_site_iff_same_label"
   ],
   "note": ""
  },
  {
   "property": "C05",
   "status": "partial",
   "theorems": [
    "C05_dict_pattern_always_fails",
    "C05_dict_pattern_refuted"
   ],
   "note": "Refuted: pattern[0] on a dictionary raises KeyError in IPEPS.__init__ (ipeps.py:196); proved for every dictionary."
  },
  {
   "property": "C06",
   "status": "proved",
   "theorems": [
    "C06_shipped_tilings",
    "C06_bipartite_sublattices"
   ],
   "note": ""
  },
  {
   "property": "C07",
   "status": "proved",
   "theorems": [
    "C07_roundtrip_1d"
   ],
   "note": ""
  },
  {
   "property": "C08",
   "status": "proved",
   "theorems": [
    "C08_roundtrip_legacy",
    "C08_lines_row_major"
   ],
   "note": ""
  },
  {
   "property": "C09",
   "status": "proved",
   "theorems": [
    "C09_meaning_real",
    "C09_meaning_complex",
    "C09_order_irrelevant"
   ],
   "note": ""
  },
  {
   "property": "C10",
   "status": "partial",
   "theorems": [
    "C10_write_read_regular",
    "C10_default_states_are_regular",
    "C10_pattern_states_are_regular",
    "C10_bipartite_refuted"
   ],
   "note": "Proved for every state whose map is periodic in its unit cell (default PBC cells with all sites and accepted patterns). Refuted for the documented 2-site bipartite map with an inferred 2x1 cell: the file describes stripes (C10_bipartite_refuted)."
  },
  {
   "property": "C11",
   "status": "partial",
   "theorems": [
    "C11_read_index_order",
    "C11_writer_ignores_aux_seq",
    "C11_write_read_aux_refuted"
   ],
   "note": "Reader proved for every aux_seq. The writer ignores aux_seq (proved), so write/read with the same non-default aux_seq does not restore the state (C11_write_read_aux_refuted)."
  },
  {
   "property": "C12",
   "status": "proved",
   "theorems": [
    "C12_extend_embeds",
    "C12_too_small_raises",
    "C12_contractions_kept"
   ],
   "note": ""
  },
  {
   "property": "C13",
   "status": "proved",
   "theorems": [
    "C13_move_is_local_update",
    "C13_move_succeeds_iff",
    "C13_invalid_direction",
    "C13_regular_states"
   ],
   "note": ""
  },
  {
   "property": "C14",
   "status": "proved",
   "theorems": [
    "C14_site_order_irrelevant"
   ],
   "note": ""
  },
  {
   "property": "C15",
   "status": "proved",
   "theorems": [
    "C15_iteration_schedule",
    "C15_moves_never_fail",
    "C15_run_stops",
    "C15_run_total"
   ],
   "note": ""
  },
  {
   "property": "C16",
   "status": "partial",
   "theorems": [
    "C16_warmup_bound_refuted",
    "C16_warmup_count"
   ],
   "note": "Refuted: ctmrg.py:81 takes the maximum of ctm_warmup_iter and ceil(chi/maxD^2), so ctm_warmup_iter is a lower bound; exact count proved (C16_warmup_count)."
  },
  {
   "property": "C17",
   "status": "proved",
   "theorems": [
    "C17_converged_iff"
   ],
   "note": ""
  },
  {
   "property": "C18",
   "status": "partial",
   "theorems": [
    "C18_svd_cut",
    "C18_svd_arnoldi_cut",
    "C18_eig_cut",
    "C18_eig_arnoldi_cut",
    "C18_moved_cut_separates",
    "C18_whole_multiplet_refuted"
   ],
   "note": "Cut proved good for every variant; refuted only when the whole leading chi values form one multiplet, which is split (C18_whole_multiplet_refuted)."
  },
  {
   "property": "C19",
   "status": "partial",
   "theorems": [
    "C19_svd_sizes",
    "C19_eig_sizes",
    "C19_arnoldi_sizes",
    "C19_propack_refuted",
    "C19_lobpcg_refuted"
   ],
   "note": "Proved for gesdd/af/symeig/rsvd, symmetric eig and Arnoldi variants; refuted for propack (returns the untruncated factors) and lobpcg (indexes past the end)."
  },
  {
   "property": "C20",
   "status": "proved",
   "theorems": [
    "C20_truncated_factors",
    "C20_biorthogonal_full",
    "C20_biorthogonal_nz",
    "C20_nz_width",
    "C20_same_projector",
    "C20_insertion_truncates",
    "C20_insertion_exact",
    "C20_idempotent"
   ],
   "note": ""
  },
  {
   "property": "C21",
   "status": "proved",
   "theorems": [
    "C21_history_invariant",
    "C21_bounded_and_synchronized",
    "C21_step_extends",
    "C21_step_adds_last_pair"
   ],
   "note": ""
  },
  {
   "property": "C22",
   "status": "proved",
   "theorems": [
    "C22_two_loop_recursion",
    "C22_secant",
    "C22_positive_definite",
    "C22_step_direction"
   ],
   "note": ""
  },
  {
   "property": "C23",
   "status": "partial",
   "theorems": [
    "C23_accepted_was_evaluated",
    "C23_failed_step",
    "C23_accepted_step",
    "C23_terminates",
    "C23_sgd_same",
    "C23_sgd_accepted_step",
    "C23_infinite_loss_refuted"
   ],
   "note": "For finite losses the accepted step was evaluated and decreases the loss enough, and the search terminates. Refuted when the first trial loss is infinite: the interpolated step is then 0 and is accepted although it is below the smallest allowed step (C23_infinite_loss_refuted)."
  },
  {
   "property": "C24",
   "status": "partial",
   "theorems": [
    "C24_trial_restores",
    "C24_trial_with_gradient_restores",
    "C24_add_grad",
    "C24_step_moves_along_direction",
    "C24_no_fixed_point_refuted",
    "C24_wrong_loss_refuted",
    "C24_fd_restores",
    "C24_fd_quotients",
    "C24_fd_exception_refuted"
   ],
   "note": "Holds when no evaluation raises: a trial evaluation that returns has restored the parameters, a step ends at x + t d after evaluating only points of that line, and the finite-difference gradient restores every coefficient and equals the difference quotients. Refuted for NoFixedPointError caught inside the line search (parameters are not restored, later trials and the final step start from a displaced point) and for a loss that raises during finite differences."
  },
  {
   "property": "C25",
   "status": "partial",
   "theorems": [
    "C25_step_records",
    "C25_comparisons",
    "C25_ad_file_holds_best",
    "C25_sgd_file_holds_best",
    "C25_fd_file_holds_best",
    "C25_mod_file_holds_best",
    "C25_mod_file_as_good",
    "C25_all_evaluations_refuted",
    "C25_resumed_refuted"
   ],
   "note": "The file holds the first evaluation with the smallest loss, for every history of losses (with infinities and not-a-number), epochs, exceptions and restarts: ad_optim.py and ad_optim_sgd_mod.py for every torch optimizer, fd_optim_lbfgs_mod.py among evaluations outside line searches, ad_optim_lbfgs_mod.py without line search. With line search no evaluation at the start of an epoch is better than the state in the file. Refuted: best of all evaluations, and across resumed runs."
  },
  {
   "property": "C26",
   "status": "partial",
   "theorems": [
    "C26_pairing_refuted",
    "C26_mod_loss_lags_one_step",
    "C26_fd_loss_lags_one_step",
    "C26_wolfe_refuted",
    "C26_mod_resume_continues",
    "C26_fd_resume_continues"
   ],
   "note": "The property is false: the stored loss is that of the parameters one step earlier (proved for all runs with one iteration per epoch), or of the first state of the run with the strong Wolfe search. Proved instead for all crash points: resuming from any checkpoint reproduces parameters and optimizer states of the uninterrupted run. Missing: resuming with strong Wolfe in ad_optim_lbfgs_mod.py, losses that are not functions of the parameters."
  },
  {
   "property": "C27",
   "status": "partial",
   "theorems": [
    "C27_keeps_newest",
    "C27_optimizer_continues",
    "C27_unchanged",
    "C27_no_coefficients",
    "C27_first_checkpoint_refuted",
    "C27_size_zero_refuted",
    "C27_torch_keeps_newest",
    "C27_torch_ro_refuted"
   ],
   "note": "For every stored history and every new size >= 1 the newest pairs are kept in order, the coefficient list gets the new size and the optimizer can continue (ad/fd_optim_lbfgs_mod.py). Refuted: size 0, the first checkpoint of a run, and the list ro in ad_optim.py."
  },
  {
   "property": "C28",
   "status": "proved",
   "theorems": [
    "C28_options_set",
    "C28_dtype_rejected",
    "C28_unknown_rejected",
    "C28_move_sequence_refuted"
   ],
   "note": "For every sequence of valid uses of the real option table plus arbitrary program options. A list option (--CTMARGS_ctm_move_sequence) is set to the characters of its text and never to a sequence of directions (C28_move_sequence_refuted). GLOBALARGS_torch_dtype has no acceptable text. Not modelled: '--', help, the log file."
  },
  {
   "property": "C29",
   "status": "partial",
   "theorems": [
    "C29_projector_partial",
    "C29_B2_annihilated",
    "C29_B2_refuted"
   ],
   "note": "A1, A2, B1: proved for every commutative ring with 1/2. B2 refuted: make_c4v_symm_B2 (pg.py:104-107) has the signs of the quarter and the half turn exchanged; it maps every B2 tensor to zero and its results change sign under the half turn (C29_B2_annihilated)."
  },
  {
   "property": "C30",
   "status": "partial",
   "theorems": [
    "C30_sum_of_projections",
    "C30_unknown_rejected",
    "C30_idempotent_partial",
    "C30_idempotent_refuted",
    "C30_state_symmetrized"
   ],
   "note": "Sum over the set in any order, rejection of unknown irreps and symmetrization of states proved; idempotence proved for lists without B2 and refuted for B2 (same error as C29)."
  },
  {
   "property": "C31",
   "status": "proved",
   "theorems": [
    "C31_spin_algebra",
    "C31_bipartite_rotation"
   ],
   "note": "Exact real arithmetic; the operators are the tensors built by the assignment loops of get_op and get_rot_op."
  },
  {
   "property": "C32",
   "status": "partial",
   "theorems": [
    "C32_exchange_iff",
    "C32_anisotropic_refuted"
   ],
   "note": "Refuted for b != c: SS weights S+S- and S-S+ by b and c, so it is the documented operator, and hermitian, exactly when b = c (C32_exchange_iff)."
  },
  {
   "property": "C33",
   "status": "proved",
   "theorems": [
    "C33_cycles_and_parity",
    "C33_other_input_rejected",
    "C33_multiplicative"
   ],
   "note": ""
  },
  {
   "property": "C34",
   "status": "proved",
   "theorems": [
    "C34_orbit",
    "C34_partition",
    "C34_charge_constant",
    "C34_basis",
    "C34_basis_charges",
    "C34_wrong_charges_rejected",
    "C34_complete",
    "C34_physical_dim_refuted"
   ],
   "note": "Orbits, partition, charge filter; the tensors form a basis of the symmetric charge-conserving tensors for one or two physical values. With more physical values get_basis_upto_D raises IndexError (C34_physical_dim_refuted). The basis without charges built by generate_a_basis from make_c4v_symm_A1 is not modelled."
  },
  {
   "property": "C35",
   "status": "proved",
   "theorems": [
    "C35_contraction",
    "C35_plain",
    "C35_rejected",
    "C35_mismatch_refuted"
   ],
   "note": "opt_einsum backend, with and without checkpointing, every content of the uninitialised accumulator, repeated unrolled indices included: the result is the contraction of the network, and equals the plain einsum whenever that one succeeds; indices in fewer than two groups are refused. Recorded: unequal dimensions of an unrolled index are accepted silently (C35_mismatch_refuted). Not modelled: cuquantum backend, the expression prepared from shapes, the contraction path."
  },
  {
   "property": "C36",
   "status": "partial",
   "theorems": [
    "C36_corner_LU",
    "C36_corner_LU_open",
    "C36_corner_RU",
    "C36_corner_RU_open",
    "C36_corner_RD",
    "C36_corner_RD_open",
    "C36_corner_LD",
    "C36_corner_LD_open",
    "C36_rdm2x1",
    "C36_rdm1x2",
    "C36_rdm1x1_partial"
   ],
   "note": "Corners (closed and with open physical indices) and reduced density matrices of one and two sites agree between the modes sl and dl, for all tensors over a commutative semiring and all dimensions. For one site only at the vertices of the unit cell: elsewhere the mode dl raises KeyError (C63_one_site_refuted). Symmetrization and normalization are left out, they are the same in both modes."
  },
  {
   "property": "C37",
   "status": "proved",
   "theorems": [
    "C37_density",
    "C37_value",
    "C37_unchanged",
    "C37_unchanged_positive",
    "C37_positive_part",
    "C37_expectation_real",
    "C37_no_cast_failure",
    "C37_rdm1x1_partial",
    "C37_rdm2x1",
    "C37_rdm1x2",
    "C37_rdm2x2_NNN_11",
    "C37_rdm2x2_NNN_1n1",
    "C37_rdm2x2_legacy",
    "C37_rdm2x2_oe",
    "C37_no_open_site",
    "C37_complex_refuted",
    "C37_trace_refuted",
    "C37_negative_refuted",
    "C37_abelian_refuted"
   ],
   "note": "Hermitian, trace one, positive: for all matrices, sizes and eigensolvers that are right where they return, including the matrices returned by rdm1x1, rdm2x1, rdm1x2, rdm2x2_NNN_*, rdm2x2. Refuted: complex matrices with positivity enforced and a negative eigenvalue raise; matrices with nonzero imaginary trace or without positive eigenvalue are divided by zero; the abelian version ignores sym_pos_def. Exact arithmetic."
  },
  {
   "property": "C38",
   "status": "proved",
   "theorems": [
    "C38_operator",
    "C38_defined",
    "C38_bonds_nn",
    "C38_bonds_nnn",
    "C38_exchange_symmetric",
    "C38_energy"
   ],
   "note": "For periodic lattices with both sides at least 2 (even when the staggered field is non-zero), over any commutative ring with 1/2 and 1/4, any local dimension, any local operators with a nearest-neighbour term symmetric under exchange (which SU2.SS with equal x,y couplings is). Each unordered pair of neighbours occurs exactly once in the bond lists for sides at least 3. C38_energy carries it to energy_per_site; reduced density matrices are oracles."
  },
  {
   "property": "C39",
   "status": "partial",
   "theorems": [
    "C39_exchange_partial",
    "C39_uniform_partial",
    "C39_average_refuted"
   ],
   "note": "Refuted as stated: energy_per_site evaluates the third-neighbour term at (0,0) for every site, so the j3 part is j3*nnnn(0,0) (C38_energy); it is the average only if all sites agree (C39_uniform_partial, C39_average_refuted). C39_exchange_partial: a site's value is the exchange at distance two in both directions, given the correlation function (C40)."
  },
  {
   "property": "C40",
   "status": "partial",
   "theorems": [
    "C40_transposed",
    "C40_symmetric",
    "C40_operators_refuted"
   ],
   "note": "Proved for every direction, distance, rescaling and optional edges, with the transposes of the operators passed (C40_transposed), hence as documented for symmetric operators (C40_symmetric). Refuted for other operators (C40_operators_refuted). The list has dist+1 entries. Missing: nothing else of the function; dist=-1 and errors for smaller dist are not stated."
  },
  {
   "property": "C41",
   "status": "partial",
   "theorems": [
    "C41_ipeps",
    "C41_ipeps_dtype",
    "C41_dtype_refuted",
    "C41_1s_q",
    "C41_d2",
    "C41_d2_dtype_refuted",
    "C41_lc_1site_pg",
    "C41_lc_single_refuted",
    "C41_lc_function_refuted",
    "C41_lc_bp_refuted",
    "C41_trgl_refuted",
    "C41_kagome_generic",
    "C41_kagome_pg",
    "C41_kagome_flags_refuted",
    "C41_kagome_legacy_refuted",
    "C41_kagome_pg_lc_partial",
    "C41_kagome_pg_lc_refuted",
    "C41_kagome_grad_refuted",
    "C41_kagome_create"
   ],
   "note": "Round trip proved for IPEPS (and C4V, KAGOME), IPEPS_1S_Q, IPEPS_D2SYM, IPEPS_LC_1SITE_PG, IPESS_KAGOME_GENERIC, IPESS_KAGOME_PG and create_from_checkpoint of IPESS_KAGOME_PG_LC; IPESS_KAGOME_PG_LC.load_checkpoint only when all tensors are shared. Refuted for the triangular classes, IPEPS_LC_BP, load_checkpoint_lc_1site_pg, dtype and differing flags. Missing: the abelian (yastn) classes."
  },
  {
   "property": "C42",
   "status": "partial",
   "theorems": [
    "C42_real_partial",
    "C42_normalized",
    "C42_order",
    "C42_order_refuted",
    "C42_complex_refuted",
    "C42_complex_coeffs_refuted",
    "C42_sizes",
    "C42_sizes_raise",
    "C42_sizes_refuted",
    "C42_bond_partial",
    "C42_bond_refuted"
   ],
   "note": "Proved for states with real elementary tensors with equal auxiliary sizes and real coefficients, real A_1 and complex A_1+iA_2, with and without normalization (C42_real_partial, C42_normalized), and for states with a bond tensor (C42_bond_partial). Refuted: complex elementary tensors or coefficients can never be read (C42_complex_refuted, C42_complex_coeffs_refuted), another aux_seq reorders the state (C42_order gives the exact effect, C42_order_refuted), auxiliary indices of different sizes are enlarged or raise (C42_sizes, C42_sizes_raise, C42_sizes_refuted), no bond-tensor state has A_2 tensors with real bond tensors (C42_bond_refuted). Nothing else of the property is missing."
  },
  {
   "property": "C43",
   "status": "proved",
   "theorems": [
    "C43_symmetric_env",
    "C43_double_layer",
    "C43_corner",
    "C43_step",
    "C43_only_hermitian",
    "C43_qr_real",
    "C43_qr_row",
    "C43_random_corner",
    "C43_qr_refuted",
    "C43_random_init_refuted"
   ],
   "note": "Both runs (single and double layer), any number of iterations >= 1, any initial environment, any acceleration that keeps dimensions; the decomposition is an oracle returning chi real values. Further: both moves agree; the enlarged corner is the drawn network and hermitian; a move from a symmetric environment is the drawn step; only hermitian matrices are decomposed. The optional QR move keeps the symmetry over the reals; refuted over complex numbers. Division by zero is modelled as an error."
  },
  {
   "property": "C44",
   "status": "partial",
   "theorems": [
    "C44_extend_resizes",
    "C44_clone_independent",
    "C44_detach_preserves",
    "C44_small_corner_refuted",
    "C44_small_corner_raises"
   ],
   "note": "Proved for environments whose tensors have the shapes of env.chi. Refuted when the tensors are smaller than env.chi (extend slices with env.chi): 1x1 corners are broadcast over the block, other sizes raise RuntimeError (C44_small_corner_*). detach shares storage with the original, as documented."
  },
  {
   "property": "C45",
   "status": "proved",
   "theorems": [
    "C45_generated",
    "C45_rejected",
    "C45_absorbed"
   ],
   "note": "Generation, lookup and absorption for every tiling that is closed, idempotent and translation consistent (C03/C04/C06: all accepted patterns and shipped maps), all bond dimensions; mismatching bonds are refused. Absorption for diagonal weights equal at both ends, on every finite set of vertices and every assignment of indices. Not modelled: gauge(), the identity of tensor objects, dtype promotion."
  },
  {
   "property": "C46",
   "status": "partial",
   "theorems": [
    "C46_fixed_step",
    "C46_searched_step_partial",
    "C46_buffer_after_steps_partial",
    "C46_momentum_refuted"
   ],
   "note": "Step and buffer are proved for the fixed step, for nesterov and without momentum, for any number of steps. Refuted for plain momentum with line search: the in-place negation of the direction negates the stored buffer."
  },
  {
   "property": "C47",
   "status": "proved",
   "theorems": [
    "C47_parse",
    "C47_fill",
    "C47_order",
    "C47_import",
    "C47_import_square",
    "C47_import_fix",
    "C47_import_bonds",
    "C47_missing_group",
    "C47_fix_on_zero_based_refuted",
    "C47_fix_repeated_refuted"
   ],
   "note": "Texts in the table format with arbitrary filling and line breaks; evaluation of the value texts is an oracle; dtype conversion on assignment is not modelled. import_sym_tensors_FIX needs the first element counted from zero and the others from one; on a table counted from zero it silently returns wrong tensors, and it changes the list it is given (two refuted variants)."
  },
  {
   "property": "C48",
   "status": "partial",
   "theorems": [
    "C48_operator_partial",
    "C48_documented_refuted"
   ],
   "note": "The code builds -q times the plaquette term; the docstrings say +q. Proved with -q for all lattices, refuted with +q."
  },
  {
   "property": "C49",
   "status": "partial",
   "theorems": [
    "C49_explicit_map_wins",
    "C49_pattern_overrides_refuted"
   ],
   "note": "Refuted: an explicit vertexToSite always wins (ipeps.py:210), contrary to the docstring."
  },
  {
   "property": "C50",
   "status": "partial",
   "theorems": [
    "C50_basis_roundtrip",
    "C50_basis_scalar_refuted"
   ],
   "note": "Round trip proved for every rank >= 1; refuted for rank-0 tensors (the reader raises ValueError)."
  },
  {
   "property": "C51",
   "status": "proved",
   "theorems": [
    "C51_move_depends_on_lattice_only"
   ],
   "note": ""
  },
  {
   "property": "C52",
   "status": "partial",
   "theorems": [
    "C52_two_norm_refuted"
   ],
   "note": "Refuted: the default norm over corners is the maximum, the docstring promises the 2-norm; the two differ (C52 theorem gives a witness)."
  },
  {
   "property": "C53",
   "status": "partial",
   "theorems": [
    "C53_further_iterations_refuted"
   ],
   "note": "Refuted: orig_loss is compared with itself, so the loop ends after one iteration whenever tolerance_change > 0, for every loss (C53_further_iterations_refuted)."
  },
  {
   "property": "C54",
   "status": "partial",
   "theorems": [
    "C54_failed_first_step_refuted",
    "C54_failed_step_pair_refuted"
   ],
   "note": "Refuted: after a failed first step every later step raises TypeError; after a later failure the next stored pair repeats the displacement of an older step."
  },
  {
   "property": "C55",
   "status": "partial",
   "theorems": [
    "C55_step_decreases",
    "C55_small_step_refuted"
   ],
   "note": "Proved when the first trial step exceeds line_search_eps; refuted otherwise (the step is taken without evaluation)."
  },
  {
   "property": "C56",
   "status": "partial",
   "theorems": [
    "C56_failed_extension_refuted",
    "C56_failed_extension"
   ],
   "note": "Refuted: sites are replaced one by one in the dictionary of the argument (ipeps.py:455-464); exact effect proved in C56_failed_extension."
  },
  {
   "property": "C57",
   "status": "partial",
   "theorems": [
    "C57_second_extension_refuted",
    "C57_same_type"
   ],
   "note": "Refuted: the new ENV takes its dtype from global_args (env.py:81), so with a complex state and the default configuration a second extend discards imaginary parts; proved when the types agree."
  },
  {
   "property": "C58",
   "status": "partial",
   "theorems": [
    "C58_two_site",
    "C58_four_times_partial",
    "C58_per_site_refuted"
   ],
   "note": "energy_2x1_1x2 is proved correct; energy_2x2_4site returns four times the energy per site (C58_four_times_partial), the documented claim is refuted."
  },
  {
   "property": "C59",
   "status": "partial",
   "theorems": [
    "C59_half_partial",
    "C59_per_site_refuted"
   ],
   "note": "energy_2x2_4site divides by 8 instead of 4: proved to be half the energy per site, the claim is refuted."
  },
  {
   "property": "C60",
   "status": "proved",
   "theorems": [
    "C60_four_site",
    "C60_c4v"
   ],
   "note": "Reduced density matrices are oracles; even lattice sides of at least 2."
  },
  {
   "property": "C61",
   "status": "proved",
   "theorems": [
    "C61_energy"
   ],
   "note": "Reduced density matrices are oracles; the two-site tensor of the field is S^z on the first site."
  },
  {
   "property": "C62",
   "status": "proved",
   "theorems": [
    "C62_ring_exchange"
   ],
   "note": "Any local dimension (the code uses 2); the factor 1j is left out."
  },
  {
   "property": "C63",
   "status": "partial",
   "theorems": [
    "C63_one_site_partial",
    "C63_one_site_operator_partial",
    "C63_one_site_refuted",
    "C63_two_sites_row",
    "C63_two_sites_column",
    "C63_diagonal",
    "C63_antidiagonal",
    "C63_plaquette",
    "C63_plaquette_open",
    "C63_plaquette_refused"
   ],
   "note": "All six functions contract exactly the drawn network, open indices kets then bras; opt_einsum and plain versions agree. Partial: rdm1x1 in the mode dl only at vertices of the unit cell (refuted elsewhere). The contraction order chosen by opt_einsum is not modelled: einsum is the sum over all contracted indices."
  },
  {
   "property": "C64",
   "status": "partial",
   "theorems": [
    "C64_mpo_2x2",
    "C64_mpo_3x1_partial",
    "C64_mpo_3x1_refuted",
    "C64_mpo_1x3_refuted",
    "C64_mps_row",
    "C64_mps_column",
    "C64_mps_antidiagonal"
   ],
   "note": "Proved for the 2x2 plaquette and the two-site functions. Three sites in a column only when two bond dimensions agree, refuted otherwise (RuntimeError); three sites in a row refuted: a label repeated in the contraction."
  },
  {
   "property": "C65",
   "status": "partial",
   "theorems": [
    "C65_halves_UP",
    "C65_halves_LEFT",
    "C65_halves_DOWN",
    "C65_halves_RIGHT",
    "C65_absorb_UP",
    "C65_absorb_LEFT",
    "C65_absorb_DOWN",
    "C65_absorb_RIGHT_partial",
    "C65_absorb_RIGHT_dl",
    "C65_absorb_RIGHT_raises",
    "C65_absorb_RIGHT_refuted"
   ],
   "note": "Proved for the moves up, left and down in both modes and for the move right in the mode dl. The move right in the mode sl needs equal bond dimensions left and right of the site, and raises otherwise (refuted)."
  },
  {
   "property": "C66",
   "status": "partial",
   "theorems": [
    "C66_dimers",
    "C66_rows_refuted"
   ],
   "note": "Proved for operators along the strip with transposed operators (C66_dimers), given an exact decomposition. Refuted for two rows, where the singular values are dropped (C66_rows_refuted). Missing: a positive statement on what the two-row function computes."
  },
  {
   "property": "C67",
   "status": "partial",
   "theorems": [
    "C67_bond_sites",
    "C67_onsite_partial",
    "C67_symmetric",
    "C67_irreps",
    "C67_pairing_refuted",
    "C67_lengths_refuted"
   ],
   "note": "C67_onsite_partial gives the exact on-site tensor for every order of irreps: A_1 tensors take the first coefficients, A_2 tensors the rest; this is the documented formula with coefficient k on tensor k only when A_1 tensors come first (C67_pairing_refuted). C67_symmetric: rotation invariant, conjugated by a reflection. C67_irreps: other irreps are refused. C67_bond_sites: both tensors of a state with a bond tensor and the checkerboard they decorate. Coefficient lists of length one are silently accepted (C67_lengths_refuted)."
  },
  {
   "property": "C68",
   "status": "partial",
   "theorems": [
    "C68_svd_gradient",
    "C68_svd_gradient_regularised",
    "C68_damping",
    "C68_eig_gradient",
    "C68_eig_gradient_regularised",
    "C68_svdsymeig_gradient_regularised",
    "C68_regularised_refuted",
    "C68_gradient_of_U_alone_refuted",
    "C68_truncated_refuted"
   ],
   "note": "C68_svd_gradient, C68_eig_gradient: exact gradient for regularization 0 and distinct values, any shape, real and complex. With regularization the gradient of an explicitly damped change (C68_svd_gradient_regularised, C68_eig_gradient_regularised, C68_svdsymeig_gradient_regularised), close to the exact one by C68_damping; not exact (C68_regularised_refuted). A missing gradient for V drops the one for U (C68_gradient_of_U_alone_refuted); truncated factors of SVD_PROPACK give a wrong gradient (C68_truncated_refuted). Existence of a differentiable curve of factorizations is a hypothesis."
  },
  {
   "property": "C69",
   "status": "partial",
   "theorems": [
    "C69_still_decomposition",
    "C69_pivot_positive",
    "C69_phases_fixed",
    "C69_rectangular_refuted"
   ],
   "note": "C69_still_decomposition, C69_pivot_positive, C69_phases_fixed for fix_svd_signs (columns of at most 2^80 entries, so that truncated amplitudes are not all zero); SVDGESDD.forward applies it to full factors and raises for rectangular matrices (C69_rectangular_refuted)."
  },
  {
   "property": "C70",
   "status": "partial",
   "theorems": [
    "C70_symmetries",
    "C70_1x1",
    "C70_1x1_sl_partial",
    "C70_2x1",
    "C70_2x1_sl",
    "C70_3x1",
    "C70_3x1_sl",
    "C70_2x2_NN",
    "C70_2x2_NN_sl",
    "C70_2x2_NNN",
    "C70_2x2_NNN_sl",
    "C70_2x2",
    "C70_3x2_partial",
    "C70_3x2_reflected",
    "C70_derivative",
    "C70_aux_1x1",
    "C70_aux_2x2_NN_partial",
    "C70_aux_2x2_partial",
    "C70_1x1_sl_refuted",
    "C70_aux_2x2_refuted",
    "C70_aux_2x2_NN_refuted"
   ],
   "note": "proved for real states and environments and, except for rdm1x1_sl (upper T exchanged) and rdm3x2_NNNN (one site reflected), complex ones; refuted: rdm1x1_sl over complex numbers, order of the open bonds of aux_rdm2x2_NN and aux_rdm2x2"
  },
  {
   "property": "C71",
   "status": "partial",
   "theorems": [
    "C71_step_starts_current",
    "C71_regauge_refuted",
    "C71_env_error_refuted",
    "C71_post_proc_refuted"
   ],
   "note": "Proved for runs of ad_optim_lbfgs_mod.py in which evaluations fail with exceptions other than EnvError and the post-processing keeps the parameters; the strong Wolfe search is assumed to return an evaluated point. Refuted after an EnvError, with and without regauging, and for a post-processing that changes the parameters."
  },
  {
   "property": "C72",
   "status": "partial",
   "theorems": [
    "C72_sites",
    "C72_rows_partial",
    "C72_columns_partial",
    "C72_columns_reflected",
    "C72_edges_refuted",
    "C72_complex_refuted",
    "C72_order_refuted"
   ],
   "note": "C72_sites: corrf_1sO1sO for all states (C symmetric) and edges. Two-site operators: real operators only (C72_rows_partial, C72_columns_partial), two rows for T unchanged by reflection; C72_columns_reflected: with T reflected in the edges for any T. Operators enter transposed (C72_order_refuted); complex operators and the edges of complex states refuted."
  },
  {
   "property": "C73",
   "status": "partial",
   "theorems": [
    "C73_channel",
    "C73_cell_refuted",
    "C73_seam",
    "C73_seam_refuted",
    "C73_c4v",
    "C73_c4v_two_rows",
    "C73_order_refuted"
   ],
   "note": "C73_channel, C73_c4v, C73_c4v_two_rows: all directions, tensors and numbers of cells; repeated cells need the cell to be a period (C73_cell_refuted). Without sites: C73_seam for the directions left and up; to the right the sites are reversed (C73_seam_refuted). Two rows of the C4v state: sorted only if the solver returns ascending values (C73_order_refuted). The solver is an oracle: that its values are all leading eigenvalues is not claimed."
  },
  {
   "property": "C74",
   "status": "partial",
   "theorems": [
    "C74_c4v",
    "C74_generic",
    "C74_full",
    "C74_order_refuted",
    "C74_sizes_refuted",
    "C74_transposed_refuted"
   ],
   "note": "C74_c4v, C74_generic (all directions, widths from 2) and C74_full (to the right, up, and all directions for one site; equal bond dimensions; every width): the operator handed to the solver is the drawn one. Refuted: three sites to the left or down (C74_order_refuted), different bonds (C74_sizes_refuted), density matrix of complex states (C74_transposed_refuted). Values of get_EH_spec_Ttensor are sorted only if the solver returns them ascending. The solvers are oracles."
  },
  {
   "property": "C75",
   "status": "partial",
   "theorems": [
    "C75_new",
    "C75_ctmrg",
    "C75_obc_partial",
    "C75_obc_refuted",
    "C75_prod_partial",
    "C75_prod_scale_refuted",
    "C75_overlap",
    "C75_single_layer",
    "C75_const_refuted",
    "C75_random",
    "C75_c4v_obc",
    "C75_c4v_obc_sl",
    "C75_c4v_pbc",
    "C75_c4v_given",
    "C75_c4v_given_refuted"
   ],
   "note": "Proved for every state whose unit cell is consistent and whose tensors to be scaled do not vanish: new environments, CTMRG, CTMRG_OBC, PROD, RANDOM, init_prod_overlap, and the C4v variants with closed and open boundaries. Refuted: CTMRG_OBC does not conjugate the bra (complex states), PROD leaves the upper vectors unscaled, the documented option CONST raises ValueError, and a corner supplied to the C4v environment leaves old elements outside its block. Missing: init_prod of the C4v environment."
  },
  {
   "property": "C76",
   "status": "partial",
   "theorems": [
    "C76_operator_partial",
    "C76_projector_refuted",
    "C76_documented_refuted",
    "C76_rotated"
   ],
   "note": "As stated the claim is false: h is twice the projector, and the documented polynomial is no multiple of it (both refuted with the code's spin matrices). Proved: h is the polynomial X/14 + X^2/20 + X^3/90 + X^4/1260 of X = S1.S2, symmetric, has its image in total spin 4, and h/2 is the projector; the rotated operators are the conjugates by the rotation of the second spin. Real numbers instead of floats."
  },
  {
   "property": "C77",
   "status": "partial",
   "theorems": [
    "C77_energy_BP",
    "C77_energy_1x1",
    "C77_lowmem_partial",
    "C77_lowmem_refuted",
    "C77_lambda_partial",
    "C77_lambda_refuted",
    "C77_jq",
    "C77_ladders",
    "C77_ising",
    "C77_aklt_partial",
    "C77_aklt_refuted",
    "C77_spin",
    "C77_ring_exchange"
   ],
   "note": "Proved for energy_2x2_1site_BP, J1J2 energy_1x1, J-Q, coupled ladders and Ising on every even torus, with su2 operators shown to satisfy the hypotheses. Refuted: sign of the staggered field in energy_1x1_lowmem/_tiled, four-spin product in J1J2LAMBDA, AKLT energy is per bond; for these the value actually returned is proved."
  },
  {
   "property": "C78",
   "status": "partial",
   "theorems": [
    "C78_gell_mann",
    "C78_gell_mann_real_refuted",
    "C78_cartan_weyl",
    "C78_c1",
    "C78_c2",
    "C78_kagome",
    "C78_hermitian",
    "C78_chiral",
    "C78_chiral_ops",
    "C78_fmap",
    "C78_aklt",
    "C78_aklt_diagonal",
    "C78_chiral_refuted"
   ],
   "note": "Everything is proved for complex dtypes; refuted for a real dtype (three Gell-Mann matrices vanish, C2 raises) and for the bond part of SU3_CHIRAL.h_triangle on three equal states, whose exact value is given by C78_chiral."
  },
  {
   "property": "C79",
   "status": "partial",
   "theorems": [
    "C79_hamiltonian_partial",
    "C79_real_dtype",
    "C79_observables",
    "C79_correlations_partial",
    "C79_chiral_sign_refuted",
    "C79_correlations_refuted"
   ],
   "note": "Every term of h_triangle, the three bond operators and the site operators are proved for every spin and all couplings; the chiral term has the sign opposite to the documented one, and the correlation labels carry j1 and JD (both refuted with witnesses)."
  },
  {
   "property": "C80",
   "status": "partial",
   "theorems": [
    "C80_rdm2x2",
    "C80_rdm2x1",
    "C80_rdm1x2",
    "C80_up_triangle",
    "C80_up_order_refuted",
    "C80_dn_triangle",
    "C80_trace1x1_partial",
    "C80_trace1x1_refuted",
    "C80_rdm1x1_refuted"
   ],
   "note": "Density matrices of 2x2, 2x1 and 1x2 cells for all sets of kept spins, of the up triangle (in the order s1, s2, s0), expectation values on a down triangle with operators of rank 2 and 6: proved for all states, environments and vertices with non-zero dimensions. Refuted: the documented order s0, s1, s2 of the up triangle, trace1x1_dn_kagome outside the unit cell (proved inside), rdm1x1_kagome with bonds of dimension 2."
  },
  {
   "property": "C81",
   "status": "partial",
   "theorems": [
    "C81_lattice",
    "C81_energy",
    "C81_spin_energy",
    "C81_P_up",
    "C81_correlations_partial",
    "C81_P_dn_refuted",
    "C81_magnetisation",
    "C81_generators",
    "C81_su3_energy",
    "C81_su3_observables",
    "C81_su3_eval_obs_partial",
    "C81_chirality_up_refuted",
    "C81_energy_1site_refuted",
    "C81_up_labels_refuted"
   ],
   "note": "Lattice, energies per spin, P_up, magnetisations and generators are proved for all states and couplings given that the density matrices have the values of C80. Partial: the correlations of the up triangle carry the labels of other bonds, P_dn fails, the SU(3) chirality of the up triangle has the wrong sign and energy_1site uses no triangle (refuted); the Casimir operators eval_C1, eval_C2 and correlation lengths are not modelled."
  },
  {
   "property": "C82",
   "status": "partial",
   "theorems": [
    "C82_onsite",
    "C82_project",
    "C82_project_unknown",
    "C82_parts",
    "C82_state",
    "C82_noise",
    "C82_extend",
    "C82_io",
    "C82_checkpoint",
    "C82_checkpoint_refuted",
    "C82_extend_generic_refuted",
    "C82_lc_update_refuted",
    "C82_lc_order_refuted",
    "C82_lc"
   ],
   "note": "Missing: the files and checkpoints of the generic and of the linear-combination classes, normalisation on writing, and the numbers in the files (C10, C11); the largest modulus and the random numbers are oracles. Refuted parts: extend_bond_dim of the generic class, old checkpoints with three bond tensors, update_ of linear combinations without both symmetry flags, order of coefficients."
  },
  {
   "property": "C83",
   "status": "partial",
   "theorems": [
    "C83_d2_state",
    "C83_d2_noise",
    "C83_d2_extend",
    "C83_d2_checkpoint",
    "C83_d2_io",
    "C83_d2_read_other",
    "C83_d2_symmetry_refuted",
    "C83_d2_read_refuted",
    "C83_kagome_physical_dim",
    "C83_kagome_extend_partial",
    "C83_kagome_extend_refuted",
    "C83_kagome_io",
    "C83_kagome_read_refuted"
   ],
   "note": "The mirror structure, noise, enlargement, checkpoints and files of ladder states are proved; the left-right symmetry is not imposed by the constructor and the second tensor of a file is dropped (refuted). For kagome states the physical dimension and files are proved; enlargement is proved for cells reached by the stored sites and refuted otherwise, and reading with vertexToSite is refuted."
  },
  {
   "property": "C84",
   "status": "partial",
   "theorems": [
    "C84_rsvd",
    "C84_rsvd_exact",
    "C84_truncated_svd_rsvd",
    "C84_vnum_refuted",
    "C84_sample"
   ],
   "note": "Proved for vnum 1 and above 2, for all samples; refuted for vnum 0 and 2, where zeros are returned. QR and singular value decompositions are oracles with their defining equations; that a random sample spans the columns with probability one is not modelled."
  },
  {
   "property": "C85",
   "status": "partial",
   "theorems": [
    "C85_symeig",
    "C85_svdsymeig_partial",
    "C85_whole",
    "C85_right_vectors_refuted"
   ],
   "note": "Proved except that V is orthonormal: it is exactly when no eigenvalue vanishes, and refuted otherwise. The library's eigenpairs and order are oracles with their defining equations."
  },
  {
   "property": "C86",
   "status": "partial",
   "theorems": [
    "C86_symmetric_partial",
    "C86_hermitian_refuted",
    "C86_leading_refuted"
   ],
   "note": "Acceptance of symmetric matrices is proved; Hermitian matrices are rejected and the largest eigenvalues need not be the leading ones (both refuted). torch.lobpcg is an oracle."
  }
 ]
}