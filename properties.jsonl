{"id": "C01", "title": "Default tiling is the periodic unit cell", "statement": "For an iPEPS built without a pattern and without an explicit map, vertexToSite maps every vertex of the square lattice to the vertex of the lX x lY unit cell congruent to it modulo (lX,lY): the result lies in [0,lX)x[0,lY), is a fixed point of the map, is unchanged by translations by (lX,0) and (0,lY), and two vertices get the same site exactly when they are congruent.", "quantifier": "all integer vertices (including negative ones) and all positive lX, lY", "why_tests_cant": "The lattice is infinite and the formula (x+|x|*l)%l relies on sign conventions; tests sample a handful of vertices.", "anchors": ["ipeps/ipeps.py:IPEPS.__init__", "ipeps/ipeps.py:from_pattern", "ipeps/ipeps.py:read_ipeps"]}
{"id": "C02", "title": "from_pattern accepts exactly the locally consistent patterns", "statement": "from_pattern raises on an empty, ragged or (0,0)-less pattern and otherwise succeeds if and only if any two cells with the same label have the same labels on their left, up, right and down neighbours (periodically). On success the returned site list contains, for every label exactly once, the smallest cell carrying the label, in increasing order, and the returned label map gives every cell its own label.", "quantifier": "all patterns (any size, any labels), given as list of lists or as dictionary", "why_tests_cant": "The set of patterns is unbounded; a missed inconsistent neighbour only shows in patterns not tested.", "anchors": ["ipeps/ipeps.py:from_pattern"]}
{"id": "C03", "title": "Accepted patterns are translation consistent", "statement": "For an iPEPS built from a pattern that from_pattern accepts, if two vertices carry the same tensor then so do the two vertices displaced from them by any common vector; the shift by one lattice vector therefore permutes the set of inequivalent sites.", "quantifier": "all accepted patterns, all pairs of vertices, all displacement vectors", "why_tests_cant": "from_pattern only checks nearest neighbours inside one cell, the user (and CTMRG, which keys environments by site) relies on all displacements on the infinite lattice.", "anchors": ["ipeps/ipeps.py:from_pattern", "ctm/generic/ctmrg.py:ctm_MOVE"]}
{"id": "C04", "title": "An iPEPS constructed with a pattern always resolves a vertex to a stored tensor with the right label", "statement": "If the constructor accepts sites and a pattern and the sites carry every label, then site(v) never fails and returns the tensor stored under a coordinate carrying the same label as v (a vertex whose label no site carries raises KeyError); lX and lY are the pattern's width and height.", "quantifier": "all patterns, site dictionaries and vertices", "why_tests_cant": "Depends on dictionary contents and on all vertices of an infinite lattice.", "anchors": ["ipeps/ipeps.py:IPEPS.__init__", "ipeps/ipeps.py:IPEPS.site"]}
{"id": "C05", "title": "Patterns may be given as dictionaries", "statement": "The constructor accepts a pattern given as a dictionary from coordinates to labels, as its documentation says, and yields the same tiling as the corresponding list of rows.", "quantifier": "all dictionary patterns", "why_tests_cant": "Needs a statement about every dictionary; no test passes a dict to the constructor.", "anchors": ["ipeps/ipeps.py:IPEPS.__init__", "ipeps/ipeps.py:from_pattern"]}
{"id": "C06", "title": "Documented and built-in tilings are translation consistent", "statement": "The vertexToSite maps shown in the IPEPS documentation (1-site, 2-site bipartite, stripe) and shipped for 3-site single-tensor (q-rotated) states send every vertex to one of the listed sites and commute with translations: equal sites at two vertices imply equal sites at all common displacements. The bipartite map puts the two sites on the two sublattices.", "quantifier": "all vertices, all displacements", "why_tests_cant": "Infinite lattice, negative coordinates and abs/mod arithmetic.", "anchors": ["ipeps/ipeps.py:IPEPS.__init__", "ipeps/ipeps_1s_Q.py:IPEPS_1S_Q"]}
{"id": "C07", "title": "Tensor JSON round trip (dense 1D format)", "statement": "Serializing a tensor to the 1D json representation and reading it back yields a tensor of the same shape with the same entries, for real and complex tensors of any rank.", "quantifier": "all shapes (any rank and dimensions, including 0-size and scalar) and all entries", "why_tests_cant": "Round trip must hold for all shapes and values; index bookkeeping (row-major order) errors only show for particular shapes.", "anchors": ["ipeps/tensor_io.py:serialize_bare_tensor_np", "ipeps/tensor_io.py:read_bare_json_tensor_np"]}
{"id": "C08", "title": "Tensor JSON round trip (legacy index-value format)", "statement": "Serializing a tensor to the legacy representation (one string 'i0 i1 .. re [im]' per entry) and reading it back gives the same shape and entries; the list of strings enumerates every index exactly once in row-major order.", "quantifier": "all shapes with positive dimensions and all entries, real and complex", "why_tests_cant": "Involves printing and parsing of indices and splitting of strings for every size.", "anchors": ["ipeps/tensor_io.py:serialize_bare_tensor_legacy", "ipeps/tensor_io.py:read_bare_json_tensor_np_legacy"]}
{"id": "C09", "title": "Legacy reader is insensitive to the order of entries and defaults to zero", "statement": "Reading a legacy tensor file whose entries have pairwise distinct in-range indices produces the same tensor for every order of the entries; entries not listed are zero. For repeated indices the real reader adds the values while the complex reader keeps the last one.", "quantifier": "all lists of entries, all permutations of them", "why_tests_cant": "Quantifies over all permutations of sparse entry lists.", "anchors": ["ipeps/tensor_io.py:read_bare_json_tensor_np_legacy"]}
{"id": "C10", "title": "A state written to file and read back is the same state", "statement": "write_ipeps followed by read_ipeps (default arguments) yields a state that has the same tensor at every lattice vertex as the original state and the same unit-cell size.", "quantifier": "all states: any unit cell, any vertexToSite map and tensors, all vertices", "why_tests_cant": "The tiling of the infinite lattice is reconstructed from a finite pattern; a wrong pattern only shows for particular vertexToSite maps.", "anchors": ["ipeps/ipeps.py:write_ipeps", "ipeps/ipeps.py:_write_ipeps_json", "ipeps/ipeps.py:read_ipeps"]}
{"id": "C11", "title": "aux_seq describes the order of auxiliary indices in the file", "statement": "Writing with aux_seq=s and reading with the same aux_seq=s restores the tensors, for every ordering s of the auxiliary indices; reading a file whose tensors have auxiliary indices stored in order s puts them into up, left, down, right order.", "quantifier": "all permutations s of the four auxiliary indices and all tensors", "why_tests_cant": "24 permutations times arbitrary tensors; tests use only the default.", "anchors": ["ipeps/ipeps.py:read_ipeps", "ipeps/ipeps.py:_write_ipeps_json"]}
{"id": "C12", "title": "extend_bond_dim embeds the old tensors without changing the state", "statement": "extend_bond_dim(state,D') raises if D' is smaller than some current bond dimension, otherwise every tensor has bond dimension D', agrees with the old one on the old index range and vanishes elsewhere, so every contraction of the new tensors over bonds equals the contraction of the old ones.", "quantifier": "all states, all new dimensions, all contractions of one shared bond", "why_tests_cant": "All dimensions and tensors.", "anchors": ["ipeps/ipeps.py:extend_bond_dim", "ctm/generic/env.py:ENV.extend"]}
{"id": "C13", "title": "A CTM move updates exactly the boundary it is about", "statement": "A directional CTM move assigns precisely the two corners and the half-row/column tensor facing the direction for every inequivalent site (each exactly once), leaves all other environment tensors and the state untouched, and computes all new tensors from the environment before the move.", "quantifier": "all unit cells with translation-consistent tilings, all environments, all four directions", "why_tests_cant": "All unit cells and environments; a stale or half-updated environment is only visible for multi-site cells.", "anchors": ["ctm/generic/ctmrg.py:ctm_MOVE"]}
{"id": "C14", "title": "A CTM move does not depend on the order of the sites", "statement": "The environment after a directional move (as a map from (site,direction) to tensor) is the same for every iteration order of the sites dictionary.", "quantifier": "all permutations of the sites, all translation-consistent tilings", "why_tests_cant": "Quantifies over all orders of a dictionary.", "anchors": ["ctm/generic/ctmrg.py:ctm_MOVE"]}
{"id": "C15", "title": "CTMRG iteration terminates and performs the documented moves", "statement": "ctmrg.run performs at most ctm_max_iter iterations after warm-up, stops at the first iteration whose convergence check returns true, and each iteration performs for each direction of ctm_move_sequence in order exactly lX moves for a horizontal and lY for a vertical direction.", "quantifier": "all convergence criteria (arbitrary stateful functions), all ctm_max_iter, sequences and unit cells", "why_tests_cant": "The convergence function is an arbitrary callback with history.", "anchors": ["ctm/generic/ctmrg.py:run"]}
{"id": "C16", "title": "Warm-up performs at most ctm_warmup_iter iterations", "statement": "As documented, the number of warm-up iterations is at most ctm_warmup_iter when this is non-negative.", "quantifier": "all ctm_warmup_iter, chi and bond dimensions", "why_tests_cant": "Inequality over all integer configuration values.", "anchors": ["ctm/generic/ctmrg.py:run", "config.py:CTMARGS"]}
{"id": "C17", "title": "The corner-spectrum convergence check is sound", "statement": "ctmrg_conv_specC returns converged=True exactly when it has been called at least twice on the history and the last two corner spectra differ in norm by less than ctm_conv_tol, or when the number of recorded iterations reached ctm_max_iter; each call appends exactly one entry to the history.", "quantifier": "all sequences of environments (including growing spectra) and tolerances", "why_tests_cant": "Quantifies over all histories of spectra.", "anchors": ["ctm/generic/env.py:ctmrg_conv_specC"]}
{"id": "C18", "title": "Truncation never splits a multiplet", "statement": "With keep_multiplets the truncated spectrum keeps at most chi values, keeps a prefix of the descending spectrum and zeroes the rest; if the cut at chi falls inside a group of values degenerate within eps_multiplet then the cut is moved down to the nearest gap larger than eps_multiplet, and if the cut falls on a gap nothing else is dropped.", "quantifier": "all descending non-negative spectra, all chi and tolerances", "why_tests_cant": "All spectra; off-by-one errors in the gap position only appear for special degeneracies.", "anchors": ["linalg/custom_svd.py:truncated_svd_gesdd", "linalg/custom_eig.py:truncated_eig_sym", "linalg/custom_svd.py:_keep_multiplets"]}
{"id": "C19", "title": "Truncated decompositions return at most chi values", "statement": "Every truncated decomposition function returns min(chi, number of values) singular/eigen-values and matching vector blocks.", "quantifier": "all spectra and all chi (including chi larger than the matrix)", "why_tests_cant": "Different backends, every chi and size.", "anchors": ["linalg/custom_svd.py", "linalg/custom_eig.py"]}
{"id": "C20", "title": "Projectors are biorthogonal and exact without truncation", "statement": "For half-system matrices R, Rt with R^T Rt = U S V^H the projectors P, Pt satisfy P^T Pt = diag(mask), where mask selects the kept singular values above the relative cutoff; when all non-zero singular values are kept, Rt P... inserting P Pt^T between the halves reproduces R^T Rt exactly; P Pt^T is idempotent.", "quantifier": "all matrices, all exact SVDs, all chi and cutoffs", "why_tests_cant": "All matrices over all dimensions.", "anchors": ["ctm/generic/ctm_projectors.py:ctm_get_projectors_from_matrices"]}
{"id": "C21", "title": "L-BFGS history stays bounded, synchronized and positive", "statement": "At every step of any optimization run, the stored directions, steps and 1/ys lists of the L-BFGS optimizer have equal length at most history_size, contain the most recent accepted pairs in chronological order, and every stored pair has ys > 1e-10.", "quantifier": "all sequences of gradients and parameters, all history sizes >= 1", "why_tests_cant": "Invariant over unbounded histories.", "anchors": ["optim/lbfgs_modified.py:LBFGS_MOD.step_2c"]}
{"id": "C22", "title": "L-BFGS two-loop recursion is the quasi-Newton direction", "statement": "The direction produced from a history of pairs equals minus the recursively defined inverse-Hessian approximation applied to the gradient, satisfies the secant equation for the newest pair, and is a descent direction whenever the gradient is non-zero.", "quantifier": "all histories of pairs with ys>0, all gradients, all dimensions", "why_tests_cant": "Linear-algebra identity over arbitrary histories.", "anchors": ["optim/lbfgs_modified.py:LBFGS_MOD.step_2c"]}
{"id": "C23", "title": "Backtracking line search: accepted steps decrease the loss and the search terminates", "statement": "The Armijo search returns a step t only if phi(t) <= phi(0) + c1*t*phi'(0) (evaluated on t), every accepted step is positive, the reported loss is the loss at the returned step, and the number of loss evaluations is bounded by a function of the initial step and the minimal step.", "quantifier": "all real loss functions phi with negative initial slope", "why_tests_cant": "Loss functions are arbitrary; termination is over all of them.", "anchors": ["optim/lbfgs_modified.py:_scalar_search_armijo", "optim/sgd_modified.py:_scalar_search_armijo"]}
{"id": "C24", "title": "Trial evaluations leave the parameters unchanged", "statement": "Every trial evaluation during line search and every finite-difference gradient evaluation restores the parameters exactly; only the accepted step changes them, by t times the search direction.", "quantifier": "all parameter vectors, directions and loss callbacks", "why_tests_cant": "Must hold for every callback and history of trial steps.", "anchors": ["optim/lbfgs_modified.py:LBFGS_MOD._directional_evaluate_derivative_free", "optim/fd_optim_lbfgs_mod.py:optimize_state"]}
{"id": "C25", "title": "The state file holds the best state seen", "statement": "After any number of epochs the file {out_prefix}_state.json holds the state with the lowest loss among all losses evaluated at the start of epochs.", "quantifier": "all sequences of losses (all histories of epochs), with and without line search", "why_tests_cant": "History property over arbitrary loss sequences.", "anchors": ["optim/ad_optim.py:optimize_state", "optim/ad_optim_lbfgs_mod.py:optimize_state", "optim/fd_optim_lbfgs_mod.py:optimize_state"]}
{"id": "C26", "title": "A checkpoint pairs the parameters with their loss", "statement": "The checkpoint file written during optimization contains parameters and the loss of these same parameters, so that a resumed run continues from a consistent pair.", "quantifier": "all histories of epochs and all crash points between epochs", "why_tests_cant": "Quantifies over crash points.", "anchors": ["optim/ad_optim_lbfgs_mod.py:store_checkpoint", "optim/ad_optim_lbfgs_mod.py:optimize_state"]}
{"id": "C27", "title": "Resuming with a different history size keeps the newest history", "statement": "Loading an optimizer checkpoint keeps the most recent history_size pairs in order and sizes the auxiliary coefficient list to the new history size, so that the optimizer can continue.", "quantifier": "all stored histories and all new history sizes", "why_tests_cant": "All lengths and sizes, and values of stored tensors.", "anchors": ["optim/ad_optim.py:optimize_state", "optim/ad_optim_lbfgs_mod.py:load_optimizer_state_"]}
{"id": "C28", "title": "Command line options set exactly the named configuration value", "statement": "Parsing arguments sets, for every option of the four configuration groups, the attribute it names and no other; options not given keep their defaults; options of the main program are left to it.", "quantifier": "all argument vectors built from the registered options", "why_tests_cant": "All combinations of options, including option names that contain other group names.", "anchors": ["config.py:configure", "config.py:get_args_parser"]}
{"id": "C29", "title": "C4v projectors project onto the irreps", "statement": "make_c4v_symm with irrep A1, A2, B1 or B2 returns a tensor transforming under the four rotations and four reflections of the square with the characters of that irrep, and leaves every tensor already transforming this way unchanged.", "quantifier": "all tensors with equal auxiliary dimensions, all eight group elements", "why_tests_cant": "Identity over all tensors.", "anchors": ["groups/pg.py:make_c4v_symm_A1", "groups/pg.py:make_c4v_symm_A2", "groups/pg.py:make_c4v_symm_B1", "groups/pg.py:make_c4v_symm_B2"]}
{"id": "C30", "title": "Sets of irreps are symmetrized as the sum of their projections", "statement": "make_c4v_symm with a list of irreps returns the sum of the projections on the irreps in the list regardless of order, rejects unknown irreps, and is idempotent; symmetrizing a C4v state before it is written does not change an already symmetric state.", "quantifier": "all lists of irreps, all tensors", "why_tests_cant": "All tensors and lists.", "anchors": ["groups/pg.py:make_c4v_symm", "ipeps/ipeps_c4v.py"]}
{"id": "C31", "title": "SU(2) operators satisfy the spin algebra", "statement": "For every irrep dimension J the operators SZ, SP, SM satisfy [Sz,S+-]=+-S+-, [S+,S-]=2Sz, S- is the transpose of S+, Sz^2+(S+S-+S-S+)/2 = S(S+1) I with S=(J-1)/2, and the bilateral rotation squares to +-1 and maps S^z to -S^z and S^+ to -S^-.", "quantifier": "all irrep dimensions J >= 1", "why_tests_cant": "Infinite family of representations.", "anchors": ["groups/su2.py:get_op", "groups/su2.py:get_rot_op"]}
{"id": "C32", "title": "SS builds the anisotropic exchange term it documents", "statement": "SU2.SS(xyz=(a,b,c)) is a Sz.Sz + b Sx.Sx + c Sy.Sy and is hermitian for real a,b,c.", "quantifier": "all irrep dimensions and real couplings", "why_tests_cant": "Identity for all couplings.", "anchors": ["groups/su2.py:SU2.SS"]}
{"id": "C33", "title": "Permutation parity", "statement": "cycleDecomp returns disjoint cycles covering all points and following the permutation, and the returned parity equals the sign of the permutation (parity of the number of inversions); parity is multiplicative.", "quantifier": "all permutations of any size", "why_tests_cant": "n! permutations for every n; the loop removes elements from a list it iterates over.", "anchors": ["groups/permutations.py:cycleDecomp"]}
{"id": "C34", "title": "C4v orbit basis enumerates every bond configuration exactly once", "statement": "The generated list of C4v-symmetric basis elements up to bond dimension D partitions all index quadruples below D: each quadruple is in exactly one orbit, each orbit is closed under the eight symmetries, and the U(1) charge filter takes the same value on all members of an orbit.", "quantifier": "all bond dimensions D, all quadruples, all charge assignments", "why_tests_cant": "All D; duplicates only appear for special coincidences of indices.", "anchors": ["u1sym/basis.py:gen_c4v_symm_A1", "u1sym/basis.py:gen_t", "u1sym/basis.py:get_basis_upto_D"]}
{"id": "C35", "title": "Unrolled contraction equals the plain contraction", "statement": "contract_with_unroll gives the same tensor as the ordinary einsum contraction of its arguments, for every choice of unrolled indices (contracted, open or both).", "quantifier": "all networks, all dimensions, all sets of unrolled indices", "why_tests_cant": "All networks and unrolled sets.", "anchors": ["oe_ext/oe_ext.py:_contract_with_unroll_oe", "oe_ext/oe_ext.py:contract_with_unroll"]}
{"id": "C36", "title": "Single-layer and double-layer contractions agree", "statement": "Environment corners and reduced density matrices computed with mode 'sl' from the on-site tensor equal those computed with mode 'dl' from the double-layer tensor.", "quantifier": "all tensors and dimensions", "why_tests_cant": "Identity over all tensors.", "anchors": ["ctm/generic/ctm_components.py:c2x2_LU_c", "ctm/generic/ctm_components.py:c2x2_LU_sl_c", "ctm/generic/rdm.py:rdm1x1"]}
{"id": "C37", "title": "Reduced density matrices are hermitian with unit trace", "statement": "Every matrix returned after normalization is hermitian and has trace one; with positivity enforced it is also positive semi-definite; expectation values of hermitian operators in it are real.", "quantifier": "all input matrices with non-zero trace, all sizes", "why_tests_cant": "All matrices.", "anchors": ["ctm/generic/rdm.py:_sym_pos_def_matrix", "ctm/generic/rdm.py:_sym_pos_def_rdm"]}
{"id": "C38", "title": "The J1-J2 plaquette Hamiltonian counts every bond once", "statement": "Summing the 2x2 plaquette term over all plaquettes of a periodic lattice gives j1 times the sum over nearest-neighbour bonds plus j2 times the sum over next-nearest-neighbour bonds plus the staggered and uniform field terms, each bond and site counted exactly once.", "quantifier": "all lattice sizes, all couplings and fields, all local operators", "why_tests_cant": "All lattice sizes, counting argument.", "anchors": ["models/j1j2.py:J1J2.get_hp", "models/j1j2.py:J1J2.energy_per_site"]}
{"id": "C39", "title": "The third-neighbour energy averages over all sites", "statement": "The j3 part of the energy per site is the average over all sites of the unit cell of the third-nearest-neighbour exchange.", "quantifier": "all unit cells and site-dependent correlations", "why_tests_cant": "Depends on multi-site unit cells with site-dependent values.", "anchors": ["models/j1j2.py:J1J2.energy_per_site", "models/j1j2.py:eval_nnnn_per_site"]}
{"id": "C40", "title": "Correlation functions do not depend on intermediate normalization and are indexed by distance", "statement": "The r-th entry returned by corrf_1sO1sO is <O1(0)O2(r+1)> = (exact numerator)/(exact denominator), independent of the rescaling applied at every step; the result has one entry per distance 1..dist.", "quantifier": "all transfer maps, edges, operators, distances and scale factors", "why_tests_cant": "Arbitrary length iterations.", "anchors": ["ctm/generic/corrf.py:corrf_1sO1sO"]}
{"id": "C41", "title": "Point-group checkpoints can be loaded back", "statement": "For every state class, loading a checkpoint produced by store_checkpoint restores the parameters returned by get_parameters.", "quantifier": "all states of all classes, all parameter values", "why_tests_cant": "Round trip over all parameters; several classes are never exercised.", "anchors": ["ipeps/ipeps.py:IPEPS.load_checkpoint", "ipeps/ipeps_trgl_pg.py", "ipeps/ipeps_lc.py", "ipeps/ipess_kagome.py"]}
{"id": "C42", "title": "Linear-combination states survive a write/read cycle", "statement": "write_ipeps_lc followed by reading the file restores coefficients and basis tensors for every state, real or complex.", "quantifier": "all coefficient vectors, basis tensors and dtypes", "why_tests_cant": "All values, in particular complex dtype.", "anchors": ["ipeps/ipeps_lc.py:write_ipeps_lc", "ipeps/ipeps_lc.py:read_ipeps_lc"]}
{"id": "C43", "title": "C4v CTMRG keeps the environment symmetric", "statement": "After any number of C4v CTM moves the corner matrix is real diagonal (hermitian) with leading entry of unit magnitude and the half-row tensor is hermitian under exchange of its environment indices.", "quantifier": "all states, initial environments and numbers of moves", "why_tests_cant": "Invariant over unbounded iteration.", "anchors": ["ctm/one_site_c4v/ctmrg_c4v.py:ctm_MOVE_sl", "ctm/one_site_c4v/ctmrg_c4v.py:ctm_MOVE_dl"]}
{"id": "C44", "title": "Environment extension and cloning preserve the environment", "statement": "ENV.extend to a larger chi keeps all old tensors as leading blocks with zeros elsewhere and to a smaller chi keeps leading blocks; clone and detach preserve every tensor and do not alias the original mapping.", "quantifier": "all environments and chi", "why_tests_cant": "All dimensions.", "anchors": ["ctm/generic/env.py:ENV.extend", "ctm/generic/env.py:ENV.clone"]}
{"id": "C45", "title": "Bond weights are shared by the two ends of a bond", "statement": "generate_weights assigns to every inequivalent site and direction a weight such that the weight seen from one end of a bond equals the weight seen from the other end; absorbing square roots of weights at both ends multiplies each bond by its weight exactly once.", "quantifier": "all translation-consistent tilings and all bonds", "why_tests_cant": "All tilings.", "anchors": ["ipeps/ipeps.py:IPEPS_WEIGHTED.generate_weights", "ipeps/ipeps.py:IPEPS_WEIGHTED.absorb_weights"]}
{"id": "C46", "title": "SGD with line search and momentum moves along the documented direction", "statement": "The step with momentum and line search moves the parameters by minus t times the momentum direction and leaves in the optimizer state the momentum buffer buf = momentum*buf + (1-dampening)*grad.", "quantifier": "all gradients, momenta and numbers of steps", "why_tests_cant": "Aliasing of in-place operations shows only over several steps.", "anchors": ["optim/sgd_modified.py:SGD_MOD.step_2c"]}
{"id": "C47", "title": "Symmetric tensor tables are parsed into the tensors they describe", "statement": "Parsing a table entry yields the listed elements; filling a dense tensor from the sparse list puts every listed value at its index and zero elsewhere, independent of order for distinct indices.", "quantifier": "all sparse lists and dimensions", "why_tests_cant": "All inputs.", "anchors": ["su2sym/sym_ten_parser.py", "u1sym/sym_ten_parser.py"]}
{"id": "C48", "title": "Ising plaquette energy has the documented couplings", "statement": "The 2x2 Hamiltonian built for the transverse-field Ising model with plaquette interaction equals -(horizontal bond) -(vertical bond) + q*(plaquette) - hx*(site), so that summed over all plaquettes each bond, plaquette and site is counted once.", "quantifier": "all couplings q, hx and lattice sizes", "why_tests_cant": "Identity in the couplings.", "anchors": ["models/ising.py:ISING.get_h"]}
{"id": "C49", "title": "A pattern takes precedence over vertexToSite", "statement": "When a pattern is provided the vertexToSite argument is ignored, as the constructor documentation says.", "quantifier": "all patterns, maps and site dictionaries", "why_tests_cant": "Statement about every combination of arguments.", "anchors": ["ipeps/ipeps.py:IPEPS.__init__"]}
{"id": "C50", "title": "Sparse symmetric-basis tensors survive the file format", "statement": "serialize_basis_t followed by read_basis_t restores the elementary tensor (all nonzero entries at their indices, zero elsewhere) and its metadata.", "quantifier": "all elementary tensors of every rank, shape and value", "why_tests_cant": "Infinitely many tensors and values.", "anchors": ["ipeps/tensor_io.py:serialize_basis_t", "ipeps/tensor_io.py:read_basis_t"]}
{"id": "C51", "title": "A CTM move depends only on the lattice of tensors, not on its description", "statement": "If two pairs (state, environment) describe the same infinite lattice of site, corner and edge tensors - with different unit cells, different representatives or a displaced origin - then a directional move succeeds on one iff on the other and yields again the same lattice of tensors.", "quantifier": "all translation-consistent tilings, environments, directions, projector methods and displacements", "why_tests_cant": "Needs comparison of different unit cells on all environments.", "anchors": ["ctm/generic/ctmrg.py:ctm_MOVE", "ctm/generic/ctm_projectors.py", "ctm/generic/ctm_components.py"]}
{"id": "C52", "title": "The convergence criterion is the documented 2-norm of all corner spectra", "statement": "With default arguments ctmrg_conv_specC declares convergence before ctm_max_iter only if the square root of the summed squared differences of all corner spectra is below ctm_conv_tol, as its docstring says.", "quantifier": "all environments and tolerances", "why_tests_cant": "Quantifies over all spectra.", "anchors": ["ctm/generic/env.py:ctmrg_conv_specC"]}
{"id": "C53", "title": "max_iter_per_epoch bounds and allows the iterations of a step", "statement": "A call of step_2c performs up to max_iter (max_iter_per_epoch) iterations: it continues until that number is reached or one of the documented tolerances is met by the progress made.", "quantifier": "all loss functions, parameters, tolerances and values of max_iter", "why_tests_cant": "Needs the loop to be followed for arbitrary losses.", "anchors": ["optim/lbfgs_modified.py:LBFGS_MOD.step_2c"]}
{"id": "C54", "title": "Optimization can continue after a failed step", "statement": "If a step is ended by an exception of the loss function that the driver handles (EnvError), the following step works on a consistent history: it does not fail for that reason and every pair it stores is the change of gradient over the displacement between two consecutive points.", "quantifier": "all loss functions, failing at any evaluation of any step", "why_tests_cant": "Requires every possible failure point of every run.", "anchors": ["optim/lbfgs_modified.py:LBFGS_MOD.step_2c", "optim/ad_optim_lbfgs_mod.py:optimize_state"]}
{"id": "C55", "title": "A backtracking step never increases the loss", "statement": "A successful step with backtracking line search ends at a point whose loss was evaluated, satisfies the sufficient-decrease condition and is the loss returned.", "quantifier": "all loss functions, parameters and histories", "why_tests_cant": "All loss functions.", "anchors": ["optim/lbfgs_modified.py:LBFGS_MOD.step_2c"]}
{"id": "C56", "title": "A failed extend_bond_dim leaves the state as it was", "statement": "When extend_bond_dim raises because new_d is too small, the state passed in is unchanged.", "quantifier": "all states with a site that does not fit", "why_tests_cant": "Requires states whose sites have different bond dimensions; the order of sites matters.", "anchors": ["ipeps/ipeps.py:extend_bond_dim"]}
{"id": "C57", "title": "Environments keep their element type when resized", "statement": "The environment returned by ENV.extend, clone and detach has the element type of the original, so that resizing again keeps the leading blocks of all tensors.", "quantifier": "all environments, configured types and sequences of resizings", "why_tests_cant": "Only shows when the configured default type differs from that of the state.", "anchors": ["ctm/generic/env.py:ENV.extend", "ctm/generic/env.py:ENV.clone", "ctm/generic/env.py:ENV.detach"]}
{"id": "C58", "title": "HB.energy_2x2_4site returns the energy per site", "statement": "For a state with a 2x2 unit cell, the value returned by HB.energy_2x2_4site is the expectation value of the sum of the two-site term over all nearest-neighbour bonds divided by the number of sites, as is the value of energy_2x1_1x2.", "quantifier": "all states with a 2x2 unit cell, all two-site terms, all even lattice sizes", "why_tests_cant": "Equality of two different arrangements of the same sum, for all states.", "anchors": ["models/hb.py:HB.energy_2x2_4site", "models/hb.py:HB.energy_2x1_1x2"]}
{"id": "C59", "title": "COUPLEDCHAINS.energy_2x2_4site returns the energy per site", "statement": "For a state with a 2x2 unit cell, the value returned by COUPLEDCHAINS.energy_2x2_4site is the expectation value of the sum of the horizontal and vertical two-site terms over all bonds divided by the number of sites.", "quantifier": "all states with a 2x2 unit cell, all two-site terms, all even lattice sizes", "why_tests_cant": "Equality of two different arrangements of the same sum, for all states.", "anchors": ["models/hb_anisotropy.py:COUPLEDCHAINS.energy_2x2_4site"]}
{"id": "C60", "title": "The J-Q energy counts every bond and every plaquette once", "statement": "For a state with a 2x2 unit cell, JQ.energy_2x2_4site is the expectation value of j1 times the sum over nearest-neighbour bonds minus q times the sum over plaquettes of the two products of parallel bond operators, per site; the plaquette operator of JQ_C4V summed over all plaquettes is the same Hamiltonian.", "quantifier": "all states with a 2x2 unit cell, all couplings, all local operators, all even lattice sizes", "why_tests_cant": "Counting argument over all lattice sizes.", "anchors": ["models/jq.py:JQ.get_h", "models/jq.py:JQ.energy_2x2_4site", "models/jq.py:JQ_C4V.get_h"]}
{"id": "C61", "title": "The coupled-ladders energy has rungs of strength one and alpha on alternating rows", "statement": "COUPLEDLADDERS.energy_2x1_1x2 is the energy per site of the exchange on all horizontal bonds, on vertical bonds starting at even rows, alpha times the exchange on vertical bonds starting at odd rows, and a staggered field, for every tiling that respects rows and checkerboard.", "quantifier": "all tilings, couplings and lattice sizes", "why_tests_cant": "Sum over all sites of arbitrary unit cells.", "anchors": ["models/coupledLadders.py:COUPLEDLADDERS.energy_2x1_1x2"]}
{"id": "C62", "title": "The chiral term is the cyclic exchange around the plaquette minus its inverse", "statement": "Up to the factor 1j, the chiral plaquette term of J1J2 moves the four spins one step around the plaquette (s0,s1,s3,s2) minus the move in the other direction.", "quantifier": "all pairs of basis states of the plaquette", "why_tests_cant": "Index bookkeeping of two contractions, a transposition and three permutations.", "anchors": ["models/j1j2.py:J1J2.__init__"]}
{"id": "C63", "title": "Reduced density matrices contract the drawn network", "statement": "rdm1x1, rdm2x1, rdm1x2, rdm2x2_NNN_11, rdm2x2_NNN_1n1 and rdm2x2 return, before symmetrization and normalization, the contraction of the network of site and environment tensors drawn in their documentation, with the kets and then the bras of the named sites left open in the documented order; with opt_einsum and without, in the modes sl and dl, at every vertex of the lattice, for any choice of open sites of rdm2x2.", "quantifier": "all tilings, vertices, tensors, bond, environment and physical dimensions, including different dimensions on different bonds", "why_tests_cant": "Index bookkeeping of contractions with twenty tensors; a swapped pair of indices is invisible for symmetric or small test states.", "anchors": ["ctm/generic/rdm.py:rdm1x1", "ctm/generic/rdm.py:rdm2x1_sl", "ctm/generic/rdm.py:rdm1x2_sl", "ctm/generic/rdm.py:rdm2x2_NNN_11", "ctm/generic/rdm.py:rdm2x2_NNN_1n1_oe", "ctm/generic/rdm.py:rdm2x2_oe", "ctm/generic/rdm.py:rdm2x2_legacy"]}
{"id": "C64", "title": "Operators in matrix-product form are evaluated in the drawn network", "statement": "eval_mpo_rdm2x2_oe, eval_mpo_rdm1x3_oe, eval_mpo_rdm3x1_oe, eval_mpo_rdm2x1_sl, eval_mpo_rdm1x2_sl and eval_mpo_rdm2x2_NNN_1n1 return the contraction of the patch with the operator inserted between ket and bra, and the norm as the contraction of the patch alone.", "quantifier": "all tilings, vertices, tensors, operators and dimensions", "why_tests_cant": "Index bookkeeping over all tensors; a wrong index needs bonds of dimension larger than one and environments that are not symmetric to show.", "anchors": ["ctm/generic/rdm.py:eval_mpo_rdm2x2_oe", "ctm/generic/rdm.py:eval_mpo_rdm1x3_oe", "ctm/generic/rdm.py:eval_mpo_rdm3x1_oe", "ctm/generic/rdm.py:eval_mpo_rdm2x1_sl"]}
{"id": "C65", "title": "A directional move absorbs one row or column of sites", "statement": "The halves used for the projectors are the drawn networks of two enlarged corners, and the new corners and half-row or half-column tensor are the contractions of the old ones with the projectors and the site and its conjugate, in every direction, the same in the modes sl and dl.", "quantifier": "all tensors, projectors and dimensions, including different dimensions on different bonds", "why_tests_cant": "Index bookkeeping over all tensors and four directions.", "anchors": ["ctm/generic/ctm_components.py:halves_of_4x4_CTM_MOVE_UP_c", "ctm/generic/ctmrg.py:absorb_truncate_CTM_MOVE_UP_c", "ctm/generic/ctmrg.py:absorb_truncate_CTM_MOVE_RIGHT_c"]}
{"id": "C66", "title": "Two-site operators enter dimer correlation functions exactly", "statement": "Entry r of corrf_2sOH2sOH_E1 is the contraction of the strip of r+4 sites with the first operator on the first two and the second on the last two sites, divided by the norm of the strip; entry r of corrf_2sOV2sOV_E2 is the same for two rows of r+2 sites with the operators on the first and last column. Splitting an operator by a singular value decomposition and rescaling change nothing.", "quantifier": "all tilings, sites, tensors, operators, distances and exact decompositions", "why_tests_cant": "The decomposition hides the inserted operator; a missing factor is invisible for unitary operators.", "anchors": ["ctm/generic/corrf.py:corrf_2sOH2sOH_E1", "ctm/generic/corrf.py:corrf_2sOV2sOV_E2", "ctm/generic/corrf.py:apply_TM_2sO_1sChannel", "ctm/generic/corrf.py:apply_TM_2sO_2sChannel"]}
{"id": "C67", "title": "On-site tensor of a linear-combination state is the documented combination with the documented symmetry", "statement": "The on-site tensor of IPEPS_LC_1SITE_PG is sum_i lambda_i e_{A_1;i} + i sum_j lambda_j e_{A_2;j} with coefficient k multiplying elementary tensor k; if the elementary tensors belong to the irreps they name, the on-site tensor is invariant under rotations by 90 degrees, and a reflection conjugates it; other irreps and lists of coefficients of another length are refused. A state with a bond tensor (IPEPS_LC_BP) has that tensor on the even places of the square lattice and, on the odd ones, the same tensor with the combination of bond tensors contracted with each auxiliary index.", "quantifier": "all lists of elementary tensors in any order of irreps, coefficients and dimensions", "why_tests_cant": "All orders of irreps and all tensors; with the usual order (A_1 first) or a single irrep a wrong pairing does not show.", "anchors": ["ipeps/ipeps_lc.py:IPEPS_LC_1SITE_PG.build_onsite_tensors", "ipeps/ipeps_lc.py:IPEPS_LC_1SITE_PG.__init__", "ipeps/ipeps_lc_bp.py:IPEPS_LC_BP.build_onsite_tensors"]}
{"id": "C68", "title": "Gradients of the decompositions are the derivatives", "statement": "For a function of the factors that does not depend on the free phases of singular or eigenvectors, the backward functions of SVDGESDD, SVDAF, SVD_PROPACK, SVDSYMEIG and SYMEIG return the gradient with respect to the decomposed matrix: along any differentiable curve of matrices the function changes by the real inner product of that gradient with the change of the matrix, for real and complex, square and rectangular matrices.", "quantifier": "all matrices with distinct singular values or eigenvalues, all curves, all incoming gradients; with regularization all matrices", "why_tests_cant": "Gradient checks compare a few random matrices at finite precision; wrong terms for complex, rectangular or nearly degenerate matrices stay unseen.", "anchors": ["linalg/svd_gesdd.py:SVDGESDD.backward", "linalg/svd_af.py:SVDAF.backward", "linalg/svd_propack.py:SVD_PROPACK.backward", "linalg/svd_symeig.py:SVDSYMEIG.backward", "linalg/eig_sym.py:SYMEIG.backward"]}
{"id": "C69", "title": "Signs of singular vectors are fixed without changing the decomposition", "statement": "fix_svd_signs turns any singular value decomposition into another one of the same matrix with the same singular values, in which the entry of largest amplitude of every left singular vector is positive, and which does not depend on the phases of the given singular vectors; SVDGESDD.forward does this for matrices of every shape.", "quantifier": "all matrices, decompositions and phases", "why_tests_cant": "All phases of all vectors; ties and shapes not in the tests.", "anchors": ["linalg/svd_gesdd.py:fix_svd_signs", "linalg/svd_gesdd.py:SVDGESDD.forward"]}
{"id": "C70", "title": "Density matrices of the C4v state contract the drawn patches", "statement": "The functions of rdm_c4v.py (one site; two and three sites in a row; the sides, the diagonal and all of a plaquette; the ends of the upper row of a 3 x 2 patch; the versions with and without the double layer; the versions with removed sites) return the contraction of the drawn network of site tensors, their conjugates and the turned environment tensors C and T, with the open indices in the documented order, for real and complex C4v symmetric states.", "quantifier": "all C4v symmetric site tensors and environments, all dimensions", "why_tests_cant": "The code builds one corner and uses it turned; a corner used in a wrong orientation does not show for real tensors.", "anchors": ["ctm/one_site_c4v/rdm_c4v.py:rdm1x1_sl", "ctm/one_site_c4v/rdm_c4v.py:rdm2x1", "ctm/one_site_c4v/rdm_c4v.py:rdm3x1_sl", "ctm/one_site_c4v/rdm_c4v.py:rdm2x2_NN_lowmem_sl", "ctm/one_site_c4v/rdm_c4v.py:rdm2x2", "ctm/one_site_c4v/rdm_c4v.py:rdm3x2_NNNN", "ctm/one_site_c4v/rdm_c4v.py:aux_rdm2x2"]}
{"id": "C71", "title": "Every optimization step starts from the loss and gradient of the current state", "statement": "In a run of ad_optim_lbfgs_mod.py the loss and gradient from which a step of the L-BFGS optimizer computes its direction are those of the parameters the step changes, with any line search, after perturbations that follow failed environments, after gauge transformations and after post-processing.", "quantifier": "all losses, gradients, parameters, line searches, exceptions, numbers of epochs and iterations per epoch", "why_tests_cant": "The stale values appear only after exceptions of the environment or in combinations of line search and post-processing; the run continues without error.", "anchors": ["optim/ad_optim_lbfgs_mod.py:optimize_state", "optim/lbfgs_modified.py:LBFGS_MOD.step_2c"]}
{"id": "C72", "title": "Correlation functions of the C4v state contract the drawn strip", "statement": "For the C4v symmetric one-site state, entry r of corrf_1sO1sO is the contraction of the drawn strip of r+2 sites with the operators on the first and last site, between the edges drawn or between the edges passed as rl_0, divided by the same strip without operators; entry r of corrf_2sOH2sOH_E1 has two-site operators on the first two and the last two of r+4 sites, entry r of corrf_2sOV2sOV_E2 on the first and last column of two rows of r+2 sites; every copy of C and T is the one tensor of the environment turned along the boundary. Splitting operators and rescaling change nothing.", "quantifier": "all tensors, dimensions, operators, distances, edges and decompositions; real and complex states", "why_tests_cant": "One tensor stands for four corners and four edges: for real states wrong orientations cancel, complex states are not tested, and the split operators hide a missing conjugation.", "anchors": ["ctm/one_site_c4v/corrf_c4v.py:corrf_1sO1sO", "ctm/one_site_c4v/corrf_c4v.py:corrf_2sOH2sOH_E1", "ctm/one_site_c4v/corrf_c4v.py:corrf_2sOV2sOV_E2", "ctm/one_site_c4v/corrf_c4v.py:apply_TM_1sO_2", "ctm/one_site_c4v/corrf_c4v.py:get_edge_L"]}
{"id": "C73", "title": "Spectra of transfer operators are those of the drawn channel", "statement": "get_Top_spec, get_Top_w0_spec, get_Top_spec_c4v and get_Top2_spec_c4v pass to the eigenvalue solver the operator that attaches the boundary tensors (and the sites with their conjugates) of one unit cell in the given direction, so that its k-th power is the channel of k unit cells; they return the values found, sorted by decreasing modulus and divided by the largest modulus, with the eigenvectors in the same order, and propagate errors of the solver.", "quantifier": "all tilings, sites, directions, tensors, dimensions, numbers of cells, solvers and numbers of eigenvalues", "why_tests_cant": "Correlation lengths are read off the result; a channel with sites in another order, or one that is not a period, gives other values without any error.", "anchors": ["ctm/generic/transferops.py:get_Top_spec", "ctm/generic/transferops.py:get_Top_w0_spec", "ctm/generic/corrf.py:apply_TM_0sO", "ctm/one_site_c4v/transferops_c4v.py:get_Top_spec_c4v", "ctm/one_site_c4v/transferops_c4v.py:get_Top2_spec_c4v"]}
{"id": "C74", "title": "Entanglement spectra are those of the rings of boundary tensors", "statement": "get_EH_spec_Ttensor (C4v and generic) passes to the solver the operator formed by the ring of L boundary tensors with opened bonds (generic: the ring on the side of the direction, then the ring on the opposite side), and returns the values found divided by the leading modulus, in descending order; get_full_EH_spec_Ttensor diagonalizes the product of the two rings for every width, direction and unit cell. For the state cut along the cylinder these are the eigenvalues of the reduced density matrix.", "quantifier": "all widths, directions, unit cells, tensors, dimensions, numbers of values and solvers; real and complex states", "why_tests_cant": "The ring is contracted site by site with permutations that depend on the width; wrong orders of sites, sizes of views or transposed factors leave shapes and symmetric test cases unchanged.", "anchors": ["ctm/one_site_c4v/transferops_c4v.py:get_EH_spec_Ttensor", "ctm/generic/transferops.py:get_EH_spec_Ttensor", "ctm/generic/transferops.py:get_full_EH_spec_Ttensor"]}
{"id": "C75", "title": "Starting environments are built from the neighbouring sites", "statement": "ENV(chi,state) and init_env give every vertex v and direction d an environment tensor that stands for the site at v+d: for CTMRG the ket and its conjugate with the legs pointing away from v contracted, for CTMRG_OBC with these legs summed, for PROD with all legs but the one touching v contracted and unit corners, for RANDOM random tensors of the same dimensions; the tensor is divided by its largest absolute value, its boundary legs are cut or filled up with zeros to chi, and the remaining leg is the bond between v and v+d. init_prod_overlap does it with the bra of another state, ENV_C4V for the single site.", "quantifier": "all unit cells, states, bond dimensions and chi (smaller or larger than the squared bond dimension); real and complex tensors", "why_tests_cant": "Converged environments forget the start, so a wrong neighbour, a swapped leg or a missing conjugation only slows convergence or selects another fixed point.", "anchors": ["ctm/generic/env.py:init_env", "ctm/generic/env.py:ENV.__init__", "ctm/generic/env.py:init_prod_overlap", "ctm/one_site_c4v/env_c4v.py:init_env"]}
{"id": "C76", "title": "The AKLT bond operator is the projector on total spin 4", "statement": "AKLTS2().h is, for the spin operators S of models/akltS2.py with phys_dim 5, the documented polynomial of S_i.S_j, and it is the projector of two spins 2 onto total spin 4: it maps every two-site state into the states of total spin 4 and leaves those unchanged. SS is S_i.S_j. The operators of AKLTS2_C4V_BIPARTITE are the same with the second spin rotated.", "quantifier": "all states of two spins 2, exact real arithmetic", "why_tests_cant": "Tests compare energies of one optimized state near zero, where every multiple of the projector, and most wrong coefficients, look alike.", "anchors": ["models/akltS2.py:AKLTS2.__init__", "models/akltS2.py:AKLTS2.get_h", "models/akltS2.py:AKLTS2_C4V_BIPARTITE.get_h"]}
{"id": "C77", "title": "Energies of single-site bipartite states are energies per site of the rotated state", "statement": "For a translation-invariant (and, where the reduced density matrices cover one direction only, four-fold symmetric) single-site state on a periodic lattice with even sides, J1J2.energy_2x2_1site_BP, J1J2_C4V_BIPARTITE.energy_1x1, energy_1x1_lowmem and energy_1x1_tiled, J1J2LAMBDA_C4V_BIPARTITE.energy_1x1, JQ_C4V_BIPARTITE.energy_1x1, COUPLEDLADDERS_D2_BIPARTITE.energy_2x1_1x2, AKLTS2_C4V_BIPARTITE.energy_1x1 and ISING_C4V.energy_1x1_nn return the expectation value of the documented Hamiltonian, divided by the number of sites, in the state obtained by applying the spin rotation to every site of the odd sublattice.", "quantifier": "for all commutative rings of scalars, lattices with even sides at least 2, local dimensions, states with the stated symmetries, couplings and local operators invariant under the rotation", "why_tests_cant": "Tests compare converged energies of a few states, most of them without field, chirality and third neighbours; terms that vanish there, or that enter with a wrong sign or weight, are never seen, and the rotated lattice state is never built.", "anchors": ["models/j1j2.py:J1J2.energy_2x2_1site_BP", "models/j1j2.py:J1J2_C4V_BIPARTITE.energy_1x1", "models/j1j2.py:J1J2_C4V_BIPARTITE.energy_1x1_lowmem", "models/j1j2.py:J1J2_C4V_BIPARTITE.energy_1x1_tiled", "models/j1j2lambda.py:energy_1x1", "models/jq.py:JQ_C4V_BIPARTITE.energy_1x1", "models/coupledLadders.py:COUPLEDLADDERS_D2_BIPARTITE.energy_2x1_1x2", "models/akltS2.py:AKLTS2_C4V_BIPARTITE.energy_1x1", "models/ising.py:ISING_C4V.energy_1x1_nn"]}
{"id": "C78", "title": "SU(3) generators, Casimir operators and triangle Hamiltonians are the documented ones", "statement": "SU3_DEFINING.J_Gell_Mann returns eight Hermitian traceless matrices with Tr(l_a l_b) = 2 delta_ab and [l_a,l_b] = 2i f_abc l_c; Cartan_Weyl is related to them as documented; C1 is sum_k F_k F_k = P/2 - 1/6 on two sites and C2 the cubic invariant of three sites, for every dtype. KAGOME_SU3.get_h and SU3_CHIRAL.h_triangle are J (P_01+P_12+P_20) + (K+ih) P_012 + (K-ih) P_012^-1 on the three sites of a triangle (with P_012 moving the state of site 0 to site 1), Hermitian for real couplings; perm2_tri, perm3_l, perm3_r and the chirality operator are what they are called; the 27x27 matrices of SU3_AKLT are the same permutations in the joint index fmap(n1,n2,n3), which is a bijection.", "quantifier": "all basis states of two and three sites, all couplings, any ring of scalars containing 1/2, 1/3, i and sqrt 3", "why_tests_cant": "Energies of a converged state do not tell P from its inverse, nor a missing multiple on states with three equal colours; no test multiplies out the algebra, and real dtypes drop imaginary parts with a warning only.", "anchors": ["groups/su3.py:SU3_DEFINING", "groups/su3.py:get_op", "models/su3_kagome.py:KAGOME_SU3.get_h", "models/SU3_chiral.py:SU3_CHIRAL", "models/SU3_AKLT.py:fmap"]}
{"id": "C79", "title": "Spin Hamiltonian of a kagome triangle is the documented one", "statement": "S_HALF_KAGOME and S1_KAGOME build h_triangle = j1 sum S_i.S_j + JD sum (S_i x S_j)_z over the bonds 01, 12, 20 + j1sq sum (S_i.S_j)^2 - jtrip (S_0 x S_1).S_2 + jperm P + conj(jperm) P^-1 + h sum S^z_i on the three sites of a triangle; a chiral coupling with a real dtype is refused; obs_ops['sz_i'] (sp, sm) act on site i; the correlations SS_dn_ij and SS_up_ij are expectation values of S_i.S_j.", "quantifier": "all spins, all basis states of three sites, all couplings, any ring of scalars containing 1/2 and i", "why_tests_cant": "For real states the chiral term has expectation value zero, and with j1 = 1, JD = 0 (the defaults) the operator behind the correlations is S_i.S_j: no default run shows a sign or a factor.", "anchors": ["models/spin_half_kagome.py:S_HALF_KAGOME.__init__", "models/spin_half_kagome.py:S_HALF_KAGOME.eval_obs", "models/spin1_kagome.py:S1_KAGOME.__init__", "groups/su2.py:SU2.SS", "groups/su2.py:SU2.S"]}
{"id": "C80", "title": "Reduced density matrices of the kagome lattice are those of the named spins", "statement": "rdm2x2_kagome, rdm2x1_kagome and rdm1x2_kagome return, for any sets of spins A, B, C kept in each cell, the contraction of all cells of the patch with the surrounding environment, the indices being the kept spins cell by cell, kets first; rdm2x2_up_triangle_open and rdm1x1_kagome do so for the three spins s0, s1, s2 of an up triangle and of a down triangle; rdm2x2_dn_triangle_with_operator and trace1x1_dn_kagome return the contraction with the operator inserted on the down triangle, for matrices and rank-6 tensors, and the norm.", "quantifier": "all states and environments (any unit cell, dimensions, entries), all vertices, all 8 subsets of spins in every cell, all operators on three spins, any commutative semiring of scalars with a conjugation", "why_tests_cant": "There are 4096 choices of spins for 2x2 cells; tests use one or two, with states symmetric under exchange of the spins, for which a wrong order of the indices gives the same numbers.", "anchors": ["ctm/pess_kagome/rdm_kagome.py:rdm2x2_kagome", "ctm/pess_kagome/rdm_kagome.py:rdm2x1_kagome", "ctm/pess_kagome/rdm_kagome.py:rdm1x2_kagome", "ctm/pess_kagome/rdm_kagome.py:rdm2x2_up_triangle_open", "ctm/pess_kagome/rdm_kagome.py:rdm2x2_dn_triangle_with_operator", "ctm/pess_kagome/rdm_kagome.py:trace1x1_dn_kagome", "ctm/pess_kagome/rdm_kagome.py:rdm1x1_kagome", "ctm/pess_kagome/rdm_kagome.py:enlarged_corner"]}
{"id": "C81", "title": "Energies and observables of kagome states are those of the lattice of corner-sharing triangles", "statement": "energy_f (the sum of energy_triangle_up and energy_triangle_dn over the cells divided by the number of spins) of the kagome spin model and energy_per_site_2x2subsystem of the SU(3) model return the energy per spin of the sum of the triangle Hamiltonian over every up and every down triangle, for every Hamiltonian of the model; P_up, the bond correlations, the magnetisations sz_i, sp_i, sm_i, m2_i and eval_generators return the expectation values of the spins, bonds and triangles of their labels.", "quantifier": "all periodic lattices of at least 2 x 2 cells, all states (linear functionals on operators) and unit cells tiling the lattice, all spins and couplings, any field of characteristic 0 with a square root of -1 (and of 3 for SU(3))", "why_tests_cant": "The triangles of both orientations are evaluated by two different functions with different orders of the spins; on symmetric states, as used in tests, every assignment of labels gives the same numbers.", "anchors": ["models/spin_half_kagome.py:energy_triangle_dn", "models/spin_half_kagome.py:energy_triangle_up", "examples/kagome/optim_spin_half_kagome.py:energy_f", "models/spin_half_kagome.py:P_dn", "models/spin_half_kagome.py:P_up", "models/spin_half_kagome.py:eval_obs", "models/su3_kagome.py:energy_per_site_2x2subsystem", "models/su3_kagome.py:eval_obs", "models/su3_kagome.py:eval_generators", "models/su3_kagome.py:energy_1site"]}
{"id": "C82", "title": "Kagome states made of triangle and bond tensors keep their symmetries, sizes and files", "statement": "The on-site tensor of an iPESS cell is the contraction of its two triangle and three bond tensors divided by its largest element. The constructor, to_PG_symmetric and add_noise return tensors of the irreps that were asked for, leave symmetric tensors as they are and refuse irreps a tensor cannot have; with SYM_UP_DOWN and SYM_BOND_S one triangle or one bond tensor is used for all. extend_bond_dim keeps the elements of the on-site tensor and adds zeros. Reading a written state returns it, and loading a checkpoint returns the tensors of the checkpoint. Linear combinations with real coefficients have the irrep that was asked for.", "quantifier": "all bond and spin dimensions, all elements in a commutative ring with 1/2, 1/3 and an involutive conjugation, all point groups, flags and noises", "why_tests_cant": "The conjugation and the direction of rotations are invisible on real or symmetric tensors; tests use few sizes, one file and equal sites, and never load old checkpoints.", "anchors": ["ipeps/ipess_kagome.py:IPESS_KAGOME_GENERIC", "ipeps/ipess_kagome.py:IPESS_KAGOME_GENERIC.extend_bond_dim", "ipeps/ipess_kagome.py:IPESS_KAGOME_PG", "ipeps/ipess_kagome.py:IPESS_KAGOME_PG.load_checkpoint", "ipeps/ipess_kagome.py:IPESS_KAGOME_PG.add_noise", "ipeps/ipess_kagome.py:IPESS_KAGOME_PG.extend_bond_dim", "ipeps/ipess_kagome.py:IPESS_KAGOME_PG._to_PG_symmetric", "ipeps/ipess_kagome.py:to_PG_symmetric", "ipeps/ipess_kagome.py:read_ipess_kagome_pg", "ipeps/ipess_kagome.py:write_ipess_kagome_pg", "ipeps/ipess_kagome.py:IPESS_KAGOME_PG_LC"]}
{"id": "C83", "title": "Ladder states and kagome iPEPS keep tiling, symmetry, tensors and files", "statement": "An IPEPS_D2SYM state carries its parent tensor on the rows with even y and its up-down mirror image on the others, so that the state is symmetric under the reflection between the rows y and 1-y and vertical legs have equal dimensions; its tensors have the left-right symmetry A[s,u,l,d,r]=A[s,u,r,d,l]. add_noise returns the state of the symmetrised noisy tensor divided by its largest element, extend_bond_dim the state of the zero-padded tensor or a ValueError, a loaded checkpoint or a file the state that was stored. IPEPS_KAGOME.get_physical_dim returns d exactly for sites of dimension d^3; extend_bond_dim pads every tensor with zeros and keeps tiling and cell; read_ipeps_kagome returns the state that was written, also for a given vertexToSite.", "quantifier": "all tensors of rank 5 and all dimensions, all noises, all unit cells, both file formats, real and complex elements", "why_tests_cant": "Tests of these classes use one state each, never compare the cell after an enlargement with the one before, and never read with a map of vertices.", "anchors": ["ipeps/ipeps_d2.py:IPEPS_D2SYM", "ipeps/ipeps_d2.py:IPEPS_D2SYM.add_noise", "ipeps/ipeps_d2.py:extend_bond_dim", "ipeps/ipeps_d2.py:read_ipeps_d2", "ipeps/ipeps_d2.py:write_ipeps_d2", "ipeps/ipeps_kagome.py:IPEPS_KAGOME", "ipeps/ipeps_kagome.py:IPEPS_KAGOME.get_physical_dim", "ipeps/ipeps_kagome.py:IPEPS_KAGOME.extend_bond_dim", "ipeps/ipeps_kagome.py:read_ipeps_kagome"]}
{"id": "C84", "title": "Randomised singular value decompositions return singular triples", "statement": "rsvd(M, k, p, q, s, vnum) returns the k leading triples, or all of them when there are fewer, of a singular value decomposition of Q Q^dagger M for some Q with orthonormal columns whose span contains (M M^dagger)^(q-1) M R, whatever the random sample R: U and V have orthonormal columns and the values are real, not negative and descending. When the products of M with the random vectors span the columns of M, the triples are those of a singular value decomposition of M itself, for every number q of passes and every interval s between orthogonalisations. truncated_svd_rsvd returns the chi leading ones. This holds for every vnum.", "quantifier": "all complex matrices, all samples, all ranks, oversamplings, passes and intervals; correct QR and singular value decompositions of the smaller matrices", "why_tests_cant": "Random samples differ from run to run, tests compare with a tolerance on a few matrices and use the default vnum and s.", "anchors": ["linalg/svd_rsvd.py:rsvd", "linalg/custom_svd.py:truncated_svd_rsvd"]}
{"id": "C85", "title": "Decompositions of symmetric matrices are ordered by modulus", "statement": "SYMEIG.forward and SYMARNOLDI.forward return orthonormal eigenvectors of the Hermitian matrix A with their real eigenvalues, the pairs of largest modulus first and no pair lost or repeated; the full decomposition rebuilds A = U D U^dagger. SVDSYMEIG.forward and SVDSYMARNOLDI.forward return singular triples of A: values not negative and descending, orthonormal U and V, A V = U S and A^dagger U = V S; the full decomposition rebuilds A = U S V^dagger.", "quantifier": "all Hermitian matrices and numbers of pairs, every order of equal moduli; correct eigenpairs from the library", "why_tests_cant": "Tests use random matrices, which have neither vanishing nor equal moduli of eigenvalues.", "anchors": ["linalg/eig_sym.py:SYMEIG.forward", "linalg/eig_arnoldi.py:SYMARNOLDI.forward", "linalg/svd_symeig.py:SVDSYMEIG.forward", "linalg/svd_arnoldi.py:SVDSYMARNOLDI.forward"]}
{"id": "C86", "title": "LOBPCG returns the leading eigenpairs of symmetric and Hermitian matrices", "statement": "SYMLOBPCG.forward(M, k, tol) accepts every symmetric or Hermitian matrix other than zero, which its check of hermicity is meant to let pass, and returns its k leading eigenpairs: no eigenvector orthogonal to those returned has an eigenvalue of larger modulus, as for the other functions for leading eigenpairs.", "quantifier": "all symmetric and Hermitian matrices and numbers of pairs; a correct torch.lobpcg", "why_tests_cant": "Tests use real positive matrices, for which the largest eigenvalues are the leading ones and transposition is the conjugate transposition.", "anchors": ["linalg/eig_lobpcg.py:SYMLOBPCG.forward"]}
