{
 "C05": {
  "note": "Refuted: pattern[0] on a dictionary raises KeyError in IPEPS.__init__ (ipeps.py:196); proved for every dictionary."
 },
 "C49": {
  "note": "Refuted: an explicit vertexToSite always wins (ipeps.py:210), contrary to the docstring."
 },
 "C10": {
  "status": "partial",
  "note": "Proved for every state whose map is periodic in its unit cell (default PBC cells with all sites and accepted patterns). Refuted for the documented 2-site bipartite map with an inferred 2x1 cell: the file describes stripes (C10_bipartite_refuted)."
 },
 "C11": {
  "status": "partial",
  "note": "Reader proved for every aux_seq. The writer ignores aux_seq (proved), so write/read with the same non-default aux_seq does not restore the state (C11_write_read_aux_refuted)."
 },
 "C50": {
  "status": "partial",
  "note": "Round trip proved for every rank >= 1; refuted for rank-0 tensors (the reader raises ValueError)."
 },
 "C16": {
  "note": "Refuted: ctmrg.py:81 takes the maximum of ctm_warmup_iter and ceil(chi/maxD^2), so ctm_warmup_iter is a lower bound; exact count proved (C16_warmup_count)."
 },
 "C18": {
  "status": "partial",
  "note": "Cut proved good for every variant; refuted only when the whole leading chi values form one multiplet, which is split (C18_whole_multiplet_refuted)."
 },
 "C19": {
  "status": "partial",
  "note": "Proved for gesdd/af/symeig/rsvd, symmetric eig and Arnoldi variants; refuted for propack (returns the untruncated factors) and lobpcg (indexes past the end)."
 },
 "C52": {
  "status": "partial",
  "note": "Refuted: the default norm over corners is the maximum, the docstring promises the 2-norm; the two differ (C52 theorem gives a witness)."
 },
 "C23": {
  "status": "partial",
  "note": "For finite losses the accepted step was evaluated and decreases the loss enough, and the search terminates. Refuted when the first trial loss is infinite: the interpolated step is then 0 and is accepted although it is below the smallest allowed step (C23_infinite_loss_refuted)."
 },
 "C24": {
  "status": "partial",
  "note": "Holds when no evaluation raises: a trial evaluation that returns has restored the parameters, a step ends at x + t d after evaluating only points of that line, and the finite-difference gradient restores every coefficient and equals the difference quotients. Refuted for NoFixedPointError caught inside the line search (parameters are not restored, later trials and the final step start from a displaced point) and for a loss that raises during finite differences."
 },
 "C46": {
  "status": "partial",
  "note": "Step and buffer are proved for the fixed step, for nesterov and without momentum, for any number of steps. Refuted for plain momentum with line search: the in-place negation of the direction negates the stored buffer."
 },
 "C53": {
  "status": "partial",
  "note": "Refuted: orig_loss is compared with itself, so the loop ends after one iteration whenever tolerance_change > 0, for every loss (C53_further_iterations_refuted)."
 },
 "C54": {
  "status": "partial",
  "note": "Refuted: after a failed first step every later step raises TypeError; after a later failure the next stored pair repeats the displacement of an older step."
 },
 "C55": {
  "status": "partial",
  "note": "Proved when the first trial step exceeds line_search_eps; refuted otherwise (the step is taken without evaluation)."
 },
 "C44": {
  "status": "partial",
  "note": "Proved for environments whose tensors have the shapes of env.chi. Refuted when the tensors are smaller than env.chi (extend slices with env.chi): 1x1 corners are broadcast over the block, other sizes raise RuntimeError (C44_small_corner_*). detach shares storage with the original, as documented."
 },
 "C56": {
  "note": "Refuted: sites are replaced one by one in the dictionary of the argument (ipeps.py:455-464); exact effect proved in C56_failed_extension."
 },
 "C57": {
  "status": "partial",
  "note": "Refuted: the new ENV takes its dtype from global_args (env.py:81), so with a complex state and the default configuration a second extend discards imaginary parts; proved when the types agree."
 },
 "C31": {
  "status": "proved",
  "note": "Exact real arithmetic; the operators are the tensors built by the assignment loops of get_op and get_rot_op."
 },
 "C32": {
  "status": "partial",
  "note": "Refuted for b != c: SS weights S+S- and S-S+ by b and c, so it is the documented operator, and hermitian, exactly when b = c (C32_exchange_iff)."
 },
 "C29": {
  "status": "partial",
  "note": "A1, A2, B1: proved for every commutative ring with 1/2. B2 refuted: make_c4v_symm_B2 (pg.py:104-107) has the signs of the quarter and the half turn exchanged; it maps every B2 tensor to zero and its results change sign under the half turn (C29_B2_annihilated)."
 },
 "C30": {
  "status": "partial",
  "note": "Sum over the set in any order, rejection of unknown irreps and symmetrization of states proved; idempotence proved for lists without B2 and refuted for B2 (same error as C29)."
 },
 "C28": {
  "status": "proved",
  "note": "For every sequence of valid uses of the real option table plus arbitrary program options. A list option (--CTMARGS_ctm_move_sequence) is set to the characters of its text and never to a sequence of directions (C28_move_sequence_refuted). GLOBALARGS_torch_dtype has no acceptable text. Not modelled: '--', help, the log file."
 },
 "C34": {
  "status": "proved",
  "note": "Orbits, partition, charge filter; the tensors form a basis of the symmetric charge-conserving tensors for one or two physical values. With more physical values get_basis_upto_D raises IndexError (C34_physical_dim_refuted). The basis without charges built by generate_a_basis from make_c4v_symm_A1 is not modelled."
 },
 "C47": {
  "status": "proved",
  "note": "Texts in the table format with arbitrary filling and line breaks; evaluation of the value texts is an oracle; dtype conversion on assignment is not modelled. import_sym_tensors_FIX needs the first element counted from zero and the others from one; on a table counted from zero it silently returns wrong tensors, and it changes the list it is given (two refuted variants)."
 },
 "C38": {
  "status": "proved",
  "note": "For periodic lattices with both sides at least 2 (even when the staggered field is non-zero), over any commutative ring with 1/2 and 1/4, any local dimension, any local operators with a nearest-neighbour term symmetric under exchange (which SU2.SS with equal x,y couplings is). Each unordered pair of neighbours occurs exactly once in the bond lists for sides at least 3. C38_energy carries it to energy_per_site; reduced density matrices are oracles."
 },
 "C39": {
  "status": "partial",
  "note": "Refuted as stated: energy_per_site evaluates the third-neighbour term at (0,0) for every site, so the j3 part is j3*nnnn(0,0) (C38_energy); it is the average only if all sites agree (C39_uniform_partial, C39_average_refuted). C39_exchange_partial: a site's value is the exchange at distance two in both directions, given the correlation function (C40)."
 },
 "C48": {
  "status": "partial",
  "note": "The code builds -q times the plaquette term; the docstrings say +q. Proved with -q for all lattices, refuted with +q."
 },
 "C58": {
  "status": "partial",
  "note": "energy_2x1_1x2 is proved correct; energy_2x2_4site returns four times the energy per site (C58_four_times_partial), the documented claim is refuted."
 },
 "C59": {
  "status": "partial",
  "note": "energy_2x2_4site divides by 8 instead of 4: proved to be half the energy per site, the claim is refuted."
 },
 "C60": {
  "status": "proved",
  "note": "Reduced density matrices are oracles; even lattice sides of at least 2."
 },
 "C61": {
  "status": "proved",
  "note": "Reduced density matrices are oracles; the two-site tensor of the field is S^z on the first site."
 },
 "C62": {
  "status": "proved",
  "note": "Any local dimension (the code uses 2); the factor 1j is left out."
 },
 "C36": {
  "status": "partial",
  "note": "Corners (closed and with open physical indices) and reduced density matrices of one and two sites agree between the modes sl and dl, for all tensors over a commutative semiring and all dimensions. For one site only at the vertices of the unit cell: elsewhere the mode dl raises KeyError (C63_one_site_refuted). Symmetrization and normalization are left out, they are the same in both modes."
 },
 "C63": {
  "status": "partial",
  "note": "All six functions contract exactly the drawn network, open indices kets then bras; opt_einsum and plain versions agree. Partial: rdm1x1 in the mode dl only at vertices of the unit cell (refuted elsewhere). The contraction order chosen by opt_einsum is not modelled: einsum is the sum over all contracted indices."
 },
 "C64": {
  "status": "partial",
  "note": "Proved for the 2x2 plaquette and the two-site functions. Three sites in a column only when two bond dimensions agree, refuted otherwise (RuntimeError); three sites in a row refuted: a label repeated in the contraction."
 },
 "C65": {
  "status": "partial",
  "note": "Proved for the moves up, left and down in both modes and for the move right in the mode dl. The move right in the mode sl needs equal bond dimensions left and right of the site, and raises otherwise (refuted)."
 },
 "C35": {
  "status": "proved",
  "note": "opt_einsum backend, with and without checkpointing, every content of the uninitialised accumulator, repeated unrolled indices included: the result is the contraction of the network, and equals the plain einsum whenever that one succeeds; indices in fewer than two groups are refused. Recorded: unequal dimensions of an unrolled index are accepted silently (C35_mismatch_refuted). Not modelled: cuquantum backend, the expression prepared from shapes, the contraction path."
 },
 "C45": {
  "status": "proved",
  "note": "Generation, lookup and absorption for every tiling that is closed, idempotent and translation consistent (C03/C04/C06: all accepted patterns and shipped maps), all bond dimensions; mismatching bonds are refused. Absorption for diagonal weights equal at both ends, on every finite set of vertices and every assignment of indices. Not modelled: gauge(), the identity of tensor objects, dtype promotion."
 },
 "C40": {
  "status": "partial",
  "note": "Proved for every direction, distance, rescaling and optional edges, with the transposes of the operators passed (C40_transposed), hence as documented for symmetric operators (C40_symmetric). Refuted for other operators (C40_operators_refuted). The list has dist+1 entries. Missing: nothing else of the function; dist=-1 and errors for smaller dist are not stated."
 },
 "C66": {
  "status": "partial",
  "note": "Proved for operators along the strip with transposed operators (C66_dimers), given an exact decomposition. Refuted for two rows, where the singular values are dropped (C66_rows_refuted). Missing: a positive statement on what the two-row function computes."
 },
 "C25": {
  "status": "partial",
  "note": "The file holds the first evaluation with the smallest loss, for every history of losses (with infinities and not-a-number), epochs, exceptions and restarts: ad_optim.py and ad_optim_sgd_mod.py for every torch optimizer, fd_optim_lbfgs_mod.py among evaluations outside line searches, ad_optim_lbfgs_mod.py without line search. With line search no evaluation at the start of an epoch is better than the state in the file. Refuted: best of all evaluations, and across resumed runs."
 },
 "C26": {
  "status": "partial",
  "note": "The property is false: the stored loss is that of the parameters one step earlier (proved for all runs with one iteration per epoch), or of the first state of the run with the strong Wolfe search. Proved instead for all crash points: resuming from any checkpoint reproduces parameters and optimizer states of the uninterrupted run. Missing: resuming with strong Wolfe in ad_optim_lbfgs_mod.py, losses that are not functions of the parameters."
 },
 "C27": {
  "status": "partial",
  "note": "For every stored history and every new size >= 1 the newest pairs are kept in order, the coefficient list gets the new size and the optimizer can continue (ad/fd_optim_lbfgs_mod.py). Refuted: size 0, the first checkpoint of a run, and the list ro in ad_optim.py."
 },
 "C43": {
  "status": "proved",
  "note": "Both runs (single and double layer), any number of iterations >= 1, any initial environment, any acceleration that keeps dimensions; the decomposition is an oracle returning chi real values. Further: both moves agree; the enlarged corner is the drawn network and hermitian; a move from a symmetric environment is the drawn step; only hermitian matrices are decomposed. The optional QR move keeps the symmetry over the reals; refuted over complex numbers. Division by zero is modelled as an error."
 },
 "C37": {
  "status": "proved",
  "note": "Hermitian, trace one, positive: for all matrices, sizes and eigensolvers that are right where they return, including the matrices returned by rdm1x1, rdm2x1, rdm1x2, rdm2x2_NNN_*, rdm2x2. Refuted: complex matrices with positivity enforced and a negative eigenvalue raise; matrices with nonzero imaginary trace or without positive eigenvalue are divided by zero; the abelian version ignores sym_pos_def. Exact arithmetic."
 },
 "C41": {
  "status": "partial",
  "note": "Round trip proved for IPEPS (and C4V, KAGOME), IPEPS_1S_Q, IPEPS_D2SYM, IPEPS_LC_1SITE_PG, IPESS_KAGOME_GENERIC, IPESS_KAGOME_PG and create_from_checkpoint of IPESS_KAGOME_PG_LC; IPESS_KAGOME_PG_LC.load_checkpoint only when all tensors are shared. Refuted for the triangular classes, IPEPS_LC_BP, load_checkpoint_lc_1site_pg, dtype and differing flags. Missing: the abelian (yastn) classes."
 },
 "C42": {
  "status": "partial",
  "note": "Proved for states with real elementary tensors with equal auxiliary sizes and real coefficients, real A_1 and complex A_1+iA_2, with and without normalization (C42_real_partial, C42_normalized), and for states with a bond tensor (C42_bond_partial). Refuted: complex elementary tensors or coefficients can never be read (C42_complex_refuted, C42_complex_coeffs_refuted), another aux_seq reorders the state (C42_order gives the exact effect, C42_order_refuted), auxiliary indices of different sizes are enlarged or raise (C42_sizes, C42_sizes_raise, C42_sizes_refuted), no bond-tensor state has A_2 tensors with real bond tensors (C42_bond_refuted). Nothing else of the property is missing."
 },
 "C67": {
  "status": "partial",
  "note": "C67_onsite_partial gives the exact on-site tensor for every order of irreps: A_1 tensors take the first coefficients, A_2 tensors the rest; this is the documented formula with coefficient k on tensor k only when A_1 tensors come first (C67_pairing_refuted). C67_symmetric: rotation invariant, conjugated by a reflection. C67_irreps: other irreps are refused. C67_bond_sites: both tensors of a state with a bond tensor and the checkerboard they decorate. Coefficient lists of length one are silently accepted (C67_lengths_refuted)."
 },
 "C68": {
  "status": "partial",
  "note": "C68_svd_gradient, C68_eig_gradient: exact gradient for regularization 0 and distinct values, any shape, real and complex. With regularization the gradient of an explicitly damped change (C68_svd_gradient_regularised, C68_eig_gradient_regularised, C68_svdsymeig_gradient_regularised), close to the exact one by C68_damping; not exact (C68_regularised_refuted). A missing gradient for V drops the one for U (C68_gradient_of_U_alone_refuted); truncated factors of SVD_PROPACK give a wrong gradient (C68_truncated_refuted). Existence of a differentiable curve of factorizations is a hypothesis."
 },
 "C69": {
  "status": "partial",
  "note": "C69_still_decomposition, C69_pivot_positive, C69_phases_fixed for fix_svd_signs (columns of at most 2^80 entries, so that truncated amplitudes are not all zero); SVDGESDD.forward applies it to full factors and raises for rectangular matrices (C69_rectangular_refuted)."
 },
 "C70": {
  "status": "partial",
  "note": "proved for real states and environments and, except for rdm1x1_sl (upper T exchanged) and rdm3x2_NNNN (one site reflected), complex ones; refuted: rdm1x1_sl over complex numbers, order of the open bonds of aux_rdm2x2_NN and aux_rdm2x2"
 },
 "C71": {
  "status": "partial",
  "note": "Proved for runs of ad_optim_lbfgs_mod.py in which evaluations fail with exceptions other than EnvError and the post-processing keeps the parameters; the strong Wolfe search is assumed to return an evaluated point. Refuted after an EnvError, with and without regauging, and for a post-processing that changes the parameters."
 },
 "C72": {
  "status": "partial",
  "note": "C72_sites: corrf_1sO1sO for all states (C symmetric) and edges. Two-site operators: real operators only (C72_rows_partial, C72_columns_partial), two rows for T unchanged by reflection; C72_columns_reflected: with T reflected in the edges for any T. Operators enter transposed (C72_order_refuted); complex operators and the edges of complex states refuted."
 },
 "C73": {
  "status": "partial",
  "note": "C73_channel, C73_c4v, C73_c4v_two_rows: all directions, tensors and numbers of cells; repeated cells need the cell to be a period (C73_cell_refuted). Without sites: C73_seam for the directions left and up; to the right the sites are reversed (C73_seam_refuted). Two rows of the C4v state: sorted only if the solver returns ascending values (C73_order_refuted). The solver is an oracle: that its values are all leading eigenvalues is not claimed."
 },
 "C74": {
  "status": "partial",
  "note": "C74_c4v, C74_generic (all directions, widths from 2) and C74_full (to the right, up, and all directions for one site; equal bond dimensions; every width): the operator handed to the solver is the drawn one. Refuted: three sites to the left or down (C74_order_refuted), different bonds (C74_sizes_refuted), density matrix of complex states (C74_transposed_refuted). Values of get_EH_spec_Ttensor are sorted only if the solver returns them ascending. The solvers are oracles."
 },
 "C75": {
  "status": "partial",
  "note": "Proved for every state whose unit cell is consistent and whose tensors to be scaled do not vanish: new environments, CTMRG, CTMRG_OBC, PROD, RANDOM, init_prod_overlap, and the C4v variants with closed and open boundaries. Refuted: CTMRG_OBC does not conjugate the bra (complex states), PROD leaves the upper vectors unscaled, the documented option CONST raises ValueError, and a corner supplied to the C4v environment leaves old elements outside its block. Missing: init_prod of the C4v environment."
 },
 "C76": {
  "status": "partial",
  "note": "As stated the claim is false: h is twice the projector, and the documented polynomial is no multiple of it (both refuted with the code's spin matrices). Proved: h is the polynomial X/14 + X^2/20 + X^3/90 + X^4/1260 of X = S1.S2, symmetric, has its image in total spin 4, and h/2 is the projector; the rotated operators are the conjugates by the rotation of the second spin. Real numbers instead of floats."
 },
 "C77": {
  "status": "partial",
  "note": "Proved for energy_2x2_1site_BP, J1J2 energy_1x1, J-Q, coupled ladders and Ising on every even torus, with su2 operators shown to satisfy the hypotheses. Refuted: sign of the staggered field in energy_1x1_lowmem/_tiled, four-spin product in J1J2LAMBDA, AKLT energy is per bond; for these the value actually returned is proved."
 },
 "C78": {
  "status": "partial",
  "note": "Everything is proved for complex dtypes; refuted for a real dtype (three Gell-Mann matrices vanish, C2 raises) and for the bond part of SU3_CHIRAL.h_triangle on three equal states, whose exact value is given by C78_chiral."
 },
 "C79": {
  "status": "partial",
  "note": "Every term of h_triangle, the three bond operators and the site operators are proved for every spin and all couplings; the chiral term has the sign opposite to the documented one, and the correlation labels carry j1 and JD (both refuted with witnesses)."
 },
 "C80": {
  "status": "partial",
  "note": "Density matrices of 2x2, 2x1 and 1x2 cells for all sets of kept spins, of the up triangle (in the order s1, s2, s0), expectation values on a down triangle with operators of rank 2 and 6: proved for all states, environments and vertices with non-zero dimensions. Refuted: the documented order s0, s1, s2 of the up triangle, trace1x1_dn_kagome outside the unit cell (proved inside), rdm1x1_kagome with bonds of dimension 2."
 },
 "C81": {
  "status": "partial",
  "note": "Lattice, energies per spin, P_up, magnetisations and generators are proved for all states and couplings given that the density matrices have the values of C80. Partial: the correlations of the up triangle carry the labels of other bonds, P_dn fails, the SU(3) chirality of the up triangle has the wrong sign and energy_1site uses no triangle (refuted); the Casimir operators eval_C1, eval_C2 and correlation lengths are not modelled."
 },
 "C82": {
  "status": "partial",
  "note": "Missing: the files and checkpoints of the generic and of the linear-combination classes, normalisation on writing, and the numbers in the files (C10, C11); the largest modulus and the random numbers are oracles. Refuted parts: extend_bond_dim of the generic class, old checkpoints with three bond tensors, update_ of linear combinations without both symmetry flags, order of coefficients."
 },
 "C83": {
  "status": "partial",
  "note": "The mirror structure, noise, enlargement, checkpoints and files of ladder states are proved; the left-right symmetry is not imposed by the constructor and the second tensor of a file is dropped (refuted). For kagome states the physical dimension and files are proved; enlargement is proved for cells reached by the stored sites and refuted otherwise, and reading with vertexToSite is refuted."
 },
 "C84": {
  "status": "partial",
  "note": "Proved for vnum 1 and above 2, for all samples; refuted for vnum 0 and 2, where zeros are returned. QR and singular value decompositions are oracles with their defining equations; that a random sample spans the columns with probability one is not modelled."
 },
 "C85": {
  "status": "partial",
  "note": "Proved except that V is orthonormal: it is exactly when no eigenvalue vanishes, and refuted otherwise. The library's eigenpairs and order are oracles with their defining equations."
 },
 "C86": {
  "status": "partial",
  "note": "Acceptance of symmetric matrices is proved; Hermitian matrices are rejected and the largest eigenvalues need not be the leading ones (both refuted). torch.lobpcg is an oracle."
 }
}