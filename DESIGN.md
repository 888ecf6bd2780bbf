# Formal model of sigmaepsilon.math in Rocq (Coq 8.16.1)

The source under `/repo/src/sigmaepsilon/math` was read as text only.  This file
says what is modelled, how every property in `properties.jsonl` is proved, where the
code does not keep the property, and what has to be trusted.

## 1. How the model is built

* One area = up to five files under `rocq/theories`:
  `XModel.v` (definitions only, each with a comment citing the file and lines it
  models and every simplification), `XSpec.v` (small independent specification,
  where the property needs vocabulary that is not in the standard library),
  `XProofs.v` (lemmas), `XCounter.v` (witnesses), `XProps.v` (only the property
  theorems, each closed by `exact`, followed by `Print Assumptions` and non-vacuity
  `Example`s).
* Exceptions are values: `result A := Ok a | Err e` (`Prelude.v`).
* Loops are structural recursion or folds.  Loops without an a-priori bound
  (`while`) run on explicit fuel and return `OutOfFuel`; theorems exclude that
  outcome in their statement (they prove that some fuel suffices), or prove that
  *no* fuel suffices (non-termination).
* `prange` loops are lists of atomic element updates per iteration, and a run is
  *any interleaving* of those lists (`ParallelModel.v`).
* Random draws, KD-tree queries, `leggauss`, `linprog`, SymPy, matrix inverses and
  objective functions are universally quantified arguments (oracles).  The
  assumptions made on them are hypotheses in the theorem statement (section 4).
* Floating point numbers are exact numbers, except in C98-C101, C104-C107, C109, C111 and C113 where they are IEEE
  doubles: an arbitrary ordered field (`OField.v`),
  the rationals `Qc` for examples, `R` where analysis is needed, a mathcomp
  `realFieldType` for frames and tensors.  Infinities and NaN are added where a
  property is about them (C60, C61).  Integer arrays are told from float arrays where
  the result is truncated (C05, C09, C35, C59, C91).
* Where the code violates the property, a theorem `..._refuted` proves it with a
  concrete witness, and the strongest positive statement that does hold is
  proved beside it.
* The theorems were tested against edited programs; every attempt is a line of
  `seeded/LOG.jsonl`, with the theorems that failed and those that had to be tightened.


## 2. Plan per property

| id | model files | what is modelled | method |
|----|-------|-------|--------|
| C01 | Parallel*, ArrayProps | kernels as lists of atomic updates; any interleaving | per-cell trace lemma, once and for all |
| C02–C07, C67 | Array* | results of the builders and selectors read back; first match as search with failure | index arithmetic on the sequential run, order reasoning, induction |
| C08, C09 | Unique* | dictionary passes of `_unique1d_njit`, `_unique2d_njit`; dispatch on types | loop invariants; refuted for equal-sized integer arrays |
| C10–C16 | Sparse* | CSR and jagged constructors, conversions, stacking; awkward by contract | prefix sums, round trip by induction; C10, C14 refuted |
| C17–C20 | Graph* | fuelled level loops, banded storage | invariant "levels so far = distance classes", lexicographic measure; C18 refuted (no fuel suffices) |
| C21–C31, C68, C79, C80 | Ga* | crossover, mutation, decoding, tournament, solver as state machine with oracle draws | induction over cut segments, permutation invariants, invariants over histories; C25, C30, C31 refuted |
| C32–C34, C69 | Solve* | elimination loops over functions `nat -> nat -> F` | row-operation invariant: solution set preserved; C34 refuted |
| C35, C36, C44, C64–C66, C70, C71, C77, C78 | Kern*, Lin*, Tensor* | closed formulas and bulk kernels | `field`/`ring`, matrix algebra; C35, C36 refuted |
| C37–C47, C63, C72–C76 | Tensor*, FrameHist*, FrameArray* | mathcomp matrices and multi-index components; heap of frames and tensors with operations as steps | matrix algebra, invariant over histories; several refuted |
| C48–C52, C81–C86 | Func*, Rel*, Lp*, Coeff*, Parse* | expression trees, relations, row assembly, strings as `list ascii`; SymPy as oracle | induction on expressions, pointwise equivalence of constraint sets, list lemmas |
| C53 | Quad* | tensor rules as loops over columns; `leggauss` as oracle | sums over products, Riemann integrals |
| C54 | TestFun* | the test functions as parsed expressions over R | sums of squares; refuted for Rosenbrock with a != 1 |
| C55 | Lag* | Vandermonde system, polynomials as coefficient lists | linear algebra over a field, derivative calculus |
| C56–C58 | Ls*, Spline, LinDeriv | moment matrix, basis functions, weights, derivative formulas | normal equations; derivability over R |
| C59 | Mls* | neighbour averages with KD-tree oracles | sums over schedules |
| C60–C62 | Logical* | floats with infinities and NaN, broadcasting, KD-tree oracles | order reasoning; C61, C62 refuted |
| C87–C89 | Coll* | shape dispatch of `tr.py` and `show_vector`, constructors and operations of the tensor classes with flag and rank | index arithmetic of reshape, bulk kernels over all schedules; refuted with small shapes |
| C90 | Numpy* | `__array_function__`, `__array_ufunc__` of tensors; tensors in frames | matrix algebra; refuted for the product from the left |
| C91–C93, C95, C96 | Misc* | histogram with the dtype of its edges, `squeeze`, comparison of members, `chop`, `inv_sym_3x3` with SymPy substitution | schedules, list induction, order reasoning, field arithmetic on symbolic matrices; C91, C92, C96 refuted |
| C94 | Def* | `issymmetric`, `isposdef`, ... with eigenvalues and Cholesky as mathematical notions | quadratic forms; refuted for matrices that are not symmetric |
| C97 | Wrap*, WrapMore | `ArrayWrapper` with the memory of its arrays; programs as lists of statements | invariant over all programs; refuted for operators with assignment |
| C98–C101 | Float* | the arithmetic of IEEE 754 binary64 (Flocq) for `decode`, `linspace1d`, `bin_centers`, `to_range_1d` and matrix products in any order | monotonicity and error bounds of rounding; witnesses by evaluation of the floating point operations |
| C102 | Compiled* | `csr_matrix` objects with their arrays, boxing and unboxing, reads without bounds checks | invariant over all programs; refuted for negative row numbers |
| C103 | Transpose* | arrays of any dimension as shape and function of multi-indices; the 3-D branch as parallel loop | index arithmetic; refuted for 3-D stacks of rectangles |
| C104, C105 | FloatMls, FloatSolve | the averages of `MLSApproximator` and Gauss elimination with back substitution in binary64 | error bounds by induction over the operations; witnesses by evaluation |
| C106 | FloatWeight | the value of `CubicWeightFunction` in binary64, with the powers of the C library as an argument | error bounds carried through the operations of both pieces; Lipschitz bound of the exact weight; witness by evaluation |
| C107 | FloatInv, FloatInvU | the closed-form inverses of 2x2 and 3x3 matrices in binary64 | exact integers; relative errors of products and sums carried through the determinant, the adjugate and the division; Cramer's rule; witnesses by evaluation |
| C108 | JagMemModel, JagMemProps | the memory behind JaggedArrays, ndarrays, awkward arrays and lists as a store, programs as lists of commands | invariant of the store, induction over histories, a case analysis of each command; witnesses by evaluation |
| C109 | FloatSegment | _linspace operation by operation on IEEE doubles, the norm an arbitrary positive double | five roundings as factors 1 + d, |d| <= u; monotonicity of rounding for order and box |
| C110 | GaMemModel, GaMemProps | store of arrays and lists, the solver's references into it, programs as command lists; decoding, objective and generation of populations are arguments | memory grows only (prefix order) except for edits; kinds and coherence as invariants of programs; concrete programs for the refutation |
| C111 | FloatClose | isclose on pairs of IEEE doubles, operation by operation, with the comparisons of the standard | rounding is monotone, so an exact inequality survives it; relative error of differences without underflow term; overflow by cases |
| C112 | FrameTrans | `transpose` of the three frame classes with the checks of their constructors (model of TensorModel) | matrix algebra; a rectangular frame with skew columns as witness |
| C113 | FloatNorm | quotients of IEEE doubles by a norm given as an argument | error of a quotient with a perturbed denominator, then the sum of squares by induction; monotone rounding |
| C114 | LabelModel, LabelProps, LabelErr | arrays as cells of buffers with the frame they name, vectors that own arrays, registries of frames; transforming components is an argument that keeps the physical vector (C39, C87) | invariant of all histories (owners have different buffers and all their cells); three witnesses with two frames |
| C115 | DtypeModel, DtypeProps | the class tree of NumPy scalars; rows of integers with wrap-around sums; the entry |a - b| in compiled code is an argument (exact if it has a place in the type, modulo 2^w without sign) | case analysis; modular arithmetic; witnesses for every width |
| C116 | ClassModel, ClassProps | states are lists of classes (order of resolution, attributes) and objects; the order of resolution is computed by the C3 merge; the metaclass sets f, g, G from the namespace | the merge keeps each base's order and has no duplicates, hence MetaFunction comes after every class with a value; invariant over programs |
| C117 | EinsumModel, EinsumProps, EinsumAgree | np.einsum in implicit mode on labels that are code points, with its checks; the dictionary of commands is threaded through the calls; latinrange gives consecutive characters | the commands are computed for the 13 ranks that have letters, and by splitting the alphabet for all pairs of axes of dot; invariant of the dictionary |

Theorems per property (`proved`: the full statement; `partial`: see section 3):

* **C01** Parallel array builders are independent of the thread schedule (proved): `C01_array_builders_schedule_independent`, `C01_elementwise_kernels_schedule_independent`, `C01_linalg_kernels_schedule_independent`.
* **C02** repeat, tile and repeat_diagonal_2d place every entry exactly where documented (proved): `C02_repeat`, `C02_repeat1d`, `C02_tile`, `C02_tile1d`, `C02_repeat_diagonal_2d`, `C02_writes_stay_inside`.
* **C03** flatten2d is a lossless reindexing in both orders (proved): `C03_flatten2d`.
* **C04** clip1d clips into the interval and changes nothing else (proved): `C04_clip1d`, `C04_clip1d_wrong_order`.
* **C05** to_range_1d is the affine map between the two intervals (proved): `C05_to_range_1d`, `C05_to_range_1d_kernel`, `C05_integer_input_truncated`, `C05_defaults`.
* **C06** atleastnd only inserts unit axes (proved): `C06_atleastnd`, `C06_numbers`, `C06_enough_axes`, `C06_matrixform`.
* **C07** find1d and find2d return positions that look the values up again (proved): `C07_find1d`, `C07_find2d`, `C07_missing_value_unchecked`.
* **C08** unique2d is a faithful, sorted factorisation of the array (proved): `C08_unique2d_dense`, `C08_unique2d_jagged`, `C08_unique2d_dispatch`.
* **C09** indices_of_equal_rows lists all pairs of equal rows (partial): `C09_float_rows_partial`, `C09_integer_rows_partial`, `C09_integer_square_partial`, `C09_integer_square_refuted`, `C09_mixed_types_refuted`, `C09_different_columns_rejected`.
* **C10** count_cols_csr returns the number of stored entries of each row (partial): `C10_count_cols_csr_out_of_bounds_refuted`, `C10_count_cols_csr_refuted`, `C10_count_cols_partial`.
* **C100** to_range_1d maps the source into the target in double precision (partial): `C100_monotone_partial`, `C100_error_partial`, `C100_refuted`.
* **C101** Transformed components are accurate in double precision whatever the order of summation (proved): `C101_component`, `C101_round_trip`.
* **C102** CSR matrices own their memory, in Python and in compiled code (partial): `C102_rows`, `C102_compiled`, `C102_through`, `C102_write`, `C102_sources`, `C102_negative_refuted`, `C102_writable`.
* **C103** transpose_axes transposes every matrix of a stack (partial): `C103_partial`, `C103_vectors`, `C103_rectangular_refuted`.
* **C104** MLSApproximator averages in double precision (partial): `C104_error`, `C104_monotone`, `C104_exact_partial`, `C104_constants_refuted`.
* **C105** linsolve is backward stable in double precision (partial): `C105_residual_partial`, `C105_factors_partial`, `C105_refuted`.
* **C106** Cubic weights in double precision (partial): `C106_error`, `C106_support_partial`, `C106_mirror`, `C106_refuted`, `C106_plane_refuted`.
* **C107** Closed-form inverses in double precision (partial): `C107_integers_2x2`, `C107_integers_3x3`, `C107_singular_2x2`, `C107_error_2x2`, `C107_error_3x3`, `C107_error_3x3u`, `C107_singular_3x3u`, `C107_singular_refuted`, `C107_regular_refuted`, `C107_ufunc_refuted`.
* **C108** A JaggedArray is an editable array that owns its entries (partial): `C108_shared`, `C108_write`, `C108_positions`, `C108_stable`, `C108_fresh`, `C108_reads`, `C108_kinds`, `C108_assign_refuted`, `C108_own_refuted`.
* **C109** linspace between two points in double precision: ends, order, box and accuracy (partial): `C109_ends`, `C109_error_partial`, `C109_between_partial`, `C109_monotone_partial`, `C109_refuted`.
* **C11** JaggedArray round-trips through flat data and cuts (proved): `C11_jagged_round_trip`, `C11_bad_cuts_rejected`, `C11_missing_cuts_rejected`, `C11_list_of_matrices`.
* **C110** who owns the arrays of a genetic algorithm (partial): `C110_snapshots`, `C110_coherent`, `C110_champion`, `C110_assign`, `C110_cycle`, `C110_solution`, `C110_refuted`.
* **C111** isclose and allclose in double precision (partial): `C111_answers`, `C111_complete`, `C111_sound`, `C111_laws`, `C111_refuted`.
* **C112** The transpose of a frame (partial): `C112_cartesian_partial`, `C112_reference_partial`, `C112_rectangular_partial`, `C112_refuted`.
* **C113** normalize and normalize2d in double precision (partial): `C113_unit_partial`, `C113_order_partial`, `C113_refuted`.
* **C114** An array of components names the frame of the components (partial): `C114_vectors`, `C114_copies`, `C114_views`, `C114_registered_partial`, `C114_writes`, `C114_errors`, `C114_refuted`.
* **C115** dtype predicates, and equal rows of machine integers (partial): `C115_predicates_partial`, `C115_rows_partial`, `C115_unsigned_partial`, `C115_assertion`, `C115_refuted`.
* **C116** Calling a function object runs its value, whatever class it is of (partial): `C116_calls_partial`, `C116_defined`, `C116_inherits`, `C116_refuted`.
* **C117** Contractions of general tensors are right at every rank and after any history (partial): `C117_transform_partial`, `C117_dot`, `C117_dot_errors`, `C117_mismatch_partial`, `C117_agrees`, `C117_rank_refuted`, `C117_mismatch_refuted`.
* **C12** A jagged array and its CSR and dense forms hold the same entries (proved): `C12_jagged_csr_dense`.
* **C13** csr_matrix built from a dense array, or as an identity, represents that matrix (proved): `C13_dense_to_csr`, `C13_eye`.
* **C14** csr_matrix(data, indices, indptr) without a shape can hold all its entries (partial): `C14_inferred_shape_refuted`, `C14_inferred_shape_partial`.
* **C15** lower_spdata and upper_spdata split a COO matrix at the diagonal (proved): `C15_lower_spdata`, `C15_upper_spdata`, `C15_parts_cover_and_share_diagonal`.
* **C16** Stacking jagged arrays appends their rows (proved): `C16_stack_appends_rows`, `C16_other_operands_rejected`.
* **C17** rooted_level_structure returns the breadth-first distance levels (proved): `C17_levels_are_distances`.
* **C18** rooted_level_structure always returns (partial): `C18_always_returns_refuted`, `C18_returns_iff_connected_partial`.
* **C19** pseudo_peripheral_nodes terminates and returns nodes of equal eccentricity, at least that of node 0 (proved): `C19_pseudo_peripheral_nodes`, `C19_eccentricity_exists`.
* **C20** The genetic algorithm rounds the population size up to a multiple of four (proved): `C20_population_size`, `C20_rejected`.
* **C21** Crossover is a position-wise exchange of the parents' genes (proved): `C21_children`, `C21_no_crossover`, `C21_crossover`.
* **C22** Mutation flips exactly the drawn genes and keeps genotypes binary (proved): `C22_mutation`, `C22_binary`, `C22_no_mutation`.
* **C23** Decoding maps genotypes into the given ranges, hitting both ends (proved): `C23_decode`, `C23_every_genotype`, `C23_range`, `C23_ends`, `C23_injective`, `C23_step`.
* **C24** Parents are paired without repetition (proved): `C24_pairs`, `C24_odd`, `C24_two`.
* **C25** Small populations work (partial): `C25_refuted`, `C25_few_genes_refuted`, `C25_partial`.
* **C26** Every generation has nPop binary genotypes of the configured length (proved): `C26_population`.
* **C27** The champion never gets worse and elites survive (proved): `C27_champion`, `C27_elites`.
* **C28** solve performs between miniter and maxiter iterations and reports why it stopped (proved): `C28_solve`, `C28_age`.
* **C29** The number of function evaluations is reported exactly (proved): `C29_evaluations`, `C29_solve`.
* **C30** Rejected parameters leave the solver unchanged (partial): `C30_refuted`, `C30_partial`, `C30_accepted_partial`.
* **C31** Every accepted elitism value works as documented (partial): `C31_none_refuted`, `C31_one_refuted`, `C31_odd_elite_refuted`, `C31_small_fraction_refuted`, `C31_partial`, `C31_count_partial`.
* **C32** linsolve returns solutions of the linear system (proved): `C32_linsolve_solution`, `C32_inputs_unchanged`.
* **C33** Prescribed unknowns take their values and the residual closes the system (proved): `C33_linsolve_prescribed`.
* **C34** linsolve solves every regular system and rejects every singular one (partial): `C34_regular_rejected_refuted`, `C34_singular_accepted_refuted`, `C34_wrong_solution_refuted`, `C34_singular_partial`, `C34_strongly_regular_solved_partial`, `C34_solved_strongly_regular_partial`.
* **C35** The closed-form 2x2 and 3x3 inverses are inverses (partial): `C35_integer_refuted`, `C35_inv2x2`, `C35_inv2x2u`, `C35_inv3x3`, `C35_inv3x3u`, `C35_adj3x3`, `C35_bulk`.
* **C36** det2x2 and det3x3 return the determinant (partial): `C36_refuted`, `C36_expression_partial`.
* **C37** Direction cosine matrices compose and invert (proved): `C37_dcm`, `C37_dcm_meaning`, `C37_show`.
* **C38** Dual frames are biorthogonal and dualisation is an involution (proved): `C38_dual_frames`, `C38_dual_tensors`, `C38_singular`.
* **C39** A tensor's physical value survives every change of its frame (partial): `C39_refuted`, `C39_history_partial`, `C39_value_is_shown`, `C39_registered`, `C39_moves`, `C39_axes_assigned`, `C39_singular_axes_refused`, `C39_exceptions`, `C39_created`, `C39_components_assigned`, `C39_class_changed`, `C39_one_move`.
* **C40** Tensor arithmetic is frame independent (proved): `C40_sums`, `C40_multiples`, `C40_shown`.
* **C41** Subtracting a number in place subtracts it (partial): `C41_refuted`, `C41_partial`.
* **C42** Dot products do not depend on the frames of the operands (partial): `C42_refuted`, `C42_frame_refuted`, `C42_dot`, `C42_contraction`, `C42_vector_tensor_partial`, `C42_components`.
* **C43** Cross products do not depend on the frames of the operands (partial): `C43_refuted`, `C43_cross_partial`, `C43_tensors`.
* **C44** Component transformation of tensors is functorial and matches the generic rule (proved): `C44_functorial`, `C44_symmetry`, `C44_orthogonal`, `C44_ranks`, `C44_contraction`, `C44_rank2_kernels`, `C44_rank4_kernels`.
* **C45** Copying a vector or tensor keeps the physical quantity (partial): `C45_refuted`, `C45_partial`.
* **C46** A frame shows itself consistently in every target frame (partial): `C46_refuted`, `C46_partial`.
* **C47** The metric tensor, volume and Cartesian shortcuts of frames agree with their definitions (partial): `C47_refuted`, `C47_partial`.
* **C48** The arrays handed to the LP solver describe the stated problem (partial): `C48_arrays_describe_constraints_partial`, `C48_cost_vector_partial`, `C48_sparse_is_dense`, `C48_symbolic_coefficient_refuted`, `C48_callable_operator_refuted`, `C48_arrays_built`, `C48_objective_must_list`.
* **C49** An optimum of the arrays is an optimum of the problem, with the right objective value (partial): `C49_optimum_of_problem_partial`, `C49_failure_means_no_optimum_partial`, `C49_reported_value_refuted`.
* **C50** Strict inequalities and nonlinear terms are not silently changed (partial): `C50_strict_refuted`, `C50_nonlinear_refuted`, `C50_strict_margin_partial`.
* **C51** A relation string is split at its operator and evaluated as written (partial): `C51_split_at_operator`, `C51_relation_holds`, `C51_reading`, `C51_meaning`, `C51_line_break_refuted`.
* **C52** Substitution replaces all variables at once (partial): `C52_simultaneous_partial`, `C52_swap_refuted`, `C52_assumptions_refuted`, `C52_partial_substitution_refuted`.
* **C53** Tensor-product Gauss rules integrate products exactly (proved): `C53_one_dimension`, `C53_two_dimensions`, `C53_three_dimensions`, `C53_rejected`, `C53_products_2d`, `C53_products_3d`, `C53_exact_2d`, `C53_exact_3d`.
* **C54** Test functions have the documented optima (partial): `C54_matyas`, `C54_rosenbrock_partial`, `C54_rosenbrock_other_minimum_partial`, `C54_rosenbrock_refuted`, `C54_goldstein_price_partial`, `C54_beale_partial`, `C54_himmelblau_partial`, `C54_variable_order_refuted`.
* **C55** Lagrange shape functions interpolate (partial): `C55_basis_partial`, `C55_default_nodes_partial`, `C55_basis_unique`, `C55_derivatives`, `C55_approximation_partial`, `C55_repeated_nodes`, `C55_lengths`, `C55_single_node_refuted`.
* **C56** The least squares fit minimises the weighted squared error (partial): `C56_weighted_best_partial`, `C56_unweighted_best_partial`, `C56_moving_best_partial`, `C56_library_weights`, `C56_refused`, `C56_column_points_refuted`.
* **C57** The derivatives of a least squares fit are the derivatives of the fit (partial): `C57_unweighted`, `C57_fixed_constant`, `C57_fixed_singular`, `C57_moving_partial`, `C57_moving_default`, `C57_moving_constant`, `C57_moving_supported_partial`, `C57_moving_cubic_partial`, `C57_fixed_cubic_refuted`, `C57_moving_singular_refuted`.
* **C58** The cubic weight function is a smooth bump with consistent derivatives (partial): `C58_returns`, `C58_support`, `C58_smooth`, `C58_gradient_partial`, `C58_hessian_partial`, `C58_gradient_sign_refuted`, `C58_hessian_core_refuted`, `C58_gradient_near_refuted`.
* **C59** MLSApproximator averages the nearest neighbours (partial): `C59_means_partial`, `C59_returns_partial`, `C59_schedule`, `C59_bounds_partial`, `C59_constant_partial`, `C59_local_bounds_partial`, `C59_linear_partial`, `C59_integer_refuted`, `C59_single_refuted`, `C59_few_points_refuted`, `C59_grid_refuted`.
* **C60** isclose accepts exactly the documented pairs (proved): `C60_documented`, `C60_numbers`, `C60_rejected`, `C60_reflexive`, `C60_monotone`, `C60_bounded`, `C60_absolute_symmetric`, `C60_relative_not_symmetric`, `C60_reflexive_all_floats_refuted`, `C60_allclose`.
* **C61** k_nearest_neighbours honours max_distance and query options (partial): `C61_old_scipy_partial`, `C61_sklearn_partial`, `C61_new_scipy_refuted`, `C61_max_distance_refuted`, `C61_caller_dict_refuted`, `C61_default_points_refuted`.
* **C62** is_hermitian recognises hermitian matrices (partial): `C62_hermitian_accepted_partial`, `C62_shape_only_partial`, `C62_refuted`.
* **C63** Frame predicates recognise rectangular and orthonormal frames (proved): `C63_predicates`, `C63_tolerance`, `C63_constructors`.
* **C64** linspace and bin_centers place their points evenly between the ends (proved): `C64_linspace1d`, `C64_linspace_vectors`, `C64_linspace_equal_points_nan`, `C64_bin_centers`.
* **C65** The generalised inverses are one-sided inverses (proved): `C65_left`, `C65_right`, `C65_dispatch`.
* **C66** The permutation tensor is the Levi-Civita symbol (proved): `C66_permutation_tensor`, `C66_cross`.
* **C67** bool_to_float replaces every truth value (proved): `C67_bool_to_float`.
* **C68** Every parent outside the elite won a tournament of three (proved): `C68_tournaments`.
* **C69** reduce returns an equivalent triangular system (proved): `C69_reduce`.
* **C70** vpath returns evenly spaced points of a segment (proved): `C70_vpath`.
* **C71** Bulk display and normalisation act on each vector separately (proved): `C71_display_kernels`.
* **C72** The flags of a frame tell the truth (partial): `C72_refuted`, `C72_partial`.
* **C73** Writing into the axes of a frame keeps the tensors registered with it (partial): `C73_refuted`.
* **C74** Axes are taken over as the user sees them (partial): `C74_order_ignored`, `C74_transpose_refuted`, `C74_c_order_partial`, `C74_transposed_array`.
* **C75** Rotating and normalising frames keeps what it should (proved): `C75_orient`, `C75_normalize`.
* **C76** Transposing a tensor reverses its indices in every frame (proved): `C76_transpose`.
* **C77** The rank predicates (proved): `C77_full_rank`.
* **C78** Generated and congruent matrices are symmetric and definite (proved): `C78_random_matrices`, `C78_congruence`, `C78_unit_basis_vector`.
* **C79** A new generation is the selected parents followed by their children (proved): `C79_offspring`.
* **C80** Exactly the invalid parameters are rejected (proved): `C80_accepted`, `C80_rejected`.
* **C81** Coefficients reproduce the function (partial): `C81_coefficients`, `C81_normalized_partial`, `C81_normalized_refuted`, `C81_linear_coefficients`, `C81_nonlinear_listed_refuted`, `C81_linear_selection`, `C81_expression_coefficients`.
* **C82** Exactly the well-posed problems are accepted (proved): `C82_accepted`, `C82_rejected`.
* **C83** A relation has the operator it was given (proved): `C83_accepted`, `C83_rejected`.
* **C84** A function takes its variables in the given order (proved): `C84_variables`, `C84_value`, `C84_points`, `C84_numeric`.
* **C85** is_linear recognises linear functions (partial): `C85_linear_in_each`, `C85_higher_degree`, `C85_product_refuted`, `C85_numeric_refuted`.
* **C86** generate_symbols yields one symbol per index (partial): `C86_symbols_partial`, `C86_short_refuted`.
* **C87** A collection is transformed member by member (partial): `C87_second_order`, `C87_fourth_order_partial`, `C87_vectors_partial`, `C87_single_tensor_partial`, `C87_two_axes_refuted`, `C87_fourth_order_dimension_refuted`, `C87_general_collection_refuted`.
* **C88** Vectors and tensors are created exactly from arrays of the documented shapes (partial): `C88_accepted`, `C88_rank`, `C88_default_frame_partial`, `C88_default_frame_refuted`, `C88_is_bulk_partial`, `C88_is_bulk_refuted`, `C88_lists_refuted`.
* **C89** Operations on vectors, tensors and collections return objects of the same kind (partial): `C89_componentwise_partial`, `C89_transpose_partial`, `C89_tensors_have_members`, `C89_collections_refuted`, `C89_flag_refuted`.
* **C90** NumPy functions on tensors respect the frames (partial): `C90_comparison`, `C90_same_tensor`, `C90_dispatch`, `C90_negative`, `C90_left_product_refuted`.
* **C91** A histogram reports the middle of every bin (partial): `C91_counts`, `C91_centers_partial`, `C91_integer_edges_partial`, `C91_integer_edges_refuted`.
* **C92** The squeeze decorator removes unit axes and changes nothing else (partial): `C92_on_partial`, `C92_off`, `C92_tuple_refuted`.
* **C93** Members of a population are equal by genotype and ordered by fitness (proved): `C93_equality`, `C93_order`.
* **C94** Tests for symmetry and definiteness decide them (partial): `C94_symmetric_partial`, `C94_nonsymmetric_refuted`, `C94_random`, `C94_issymmetric`.
* **C95** chop zeroes exactly the small components (proved): `C95_chop`.
* **C96** The symbolic inverse is the inverse (partial): `C96_inverse_partial`, `C96_symbols_refuted`, `C96_shape_refuted`.
* **C97** Array wrappers own their memory (partial): `C97_separate`, `C97_constructor`, `C97_write`, `C97_ufunc`, `C97_output`, `C97_types`, `C97_chop`, `C97_operator`, `C97_at`, `C97_in_place_refuted`.
* **C98** Decoded phenotypes respect their ranges in double precision (partial): `C98_decode_partial`, `C98_rows`, `C98_refuted`.
* **C99** linspace1d and bin_centers keep their points between the ends in double precision (partial): `C99_linspace_partial`, `C99_linspace_refuted`, `C99_bin_centers_partial`, `C99_bin_centers_refuted`.

None of the listed properties is dropped as inexpressible.

## 3. Where the code does not keep the property

For these the full statement is refuted by a theorem `..._refuted` with a witness; the
rest of the theorems listed in `MANIFEST.json` is the strongest positive part found.

* **C09** (indices_of_equal_rows lists all pairs of equal rows). REFUTED for two integer arrays with equally many rows (only pairs (i,i) are found) and for an integer first and float second array (distances are truncated). Proved for float first arrays and for integer arrays with different row counts.
* **C10** (count_cols_csr returns the number of stored entries of each row). REFUTED: count_cols_csr reads past the end of indptr for every input and subtracts column indices instead of pointers.
* **C100** (to_range_1d maps the source into the target in double precision). REFUTED: the lower end of the source [1e16, 1e16 + 2] is mapped to the middle of the target (cancellation in the offset). Proved: monotone, and for sources, targets and values up to 2^200 the error is at most u (5 T + 9 b S + 6 b |v|) + 2^-600 with T the size of the target, S that of the source and b the slope, which explains the refutation: the ends are hit up to rounding unless the source is short for its distance from zero.
* **C102** (CSR matrices own their memory, in Python and in compiled code). REFUTED: row(-1) is empty and row(-2) is the last row, since indptr has one entry more than there are rows. Proved: the row for every integer (negative ones shifted by one), agreement of compiled code for any surrounding memory, separation of matrices over all programs. Reference counts are not modelled.
* **C103** (transpose_axes transposes every matrix of a stack). REFUTED: a stack with one leading axis of matrices that are not square raises (an empty one keeps its shape). Proved: all other shapes, every schedule.
* **C104** (MLSApproximator averages in double precision). REFUTED: ten equal values average to less than the value. Proved: error at most (k + 2) 2^-52 of the mean size for k neighbours, monotonicity, and exactness with the range for one, two and four neighbours.
* **C105** (linsolve is backward stable in double precision). REFUTED: rows are never exchanged and pivots down to 1e-12 are accepted; a 2 x 2 system with entries up to 7 and a solution up to 2 is missed by more than 1e-4. Proved: the residual of every equation is bounded by n 2^-51 |L||U||x| for the factors computed on the way (plus skipped multipliers below 1e-12 and terms of order 2^-1073), and the factors are those of a matrix close to A in that sense. No prescribed unknowns.
* **C106** (Cubic weights in double precision). REFUTED: at a point just outside of the support the scaled distance rounds to one, where the value computed is -2^-52, and a factor like that makes weights of the plane negative. Proved: error at most 2^-47 (2^-46 in two dimensions), positive up to 1 - 2^-15 of the support, zero from 1 + 2^-51, exact symmetry.
* **C107** (Closed-form inverses in double precision). REFUTED: a singular 3x3 matrix of integers of 18 bits gets an inverse of finite numbers, a regular 2x2 matrix with entries of about one raises ZeroDivisionError, and inv3x3u, which divides before it subtracts, does not return the rounded inverse of a matrix of integers up to 4. Proved: exact inverses rounded once and recognised singularity for integers (26 bits for 2x2, 16 bits for 3x3; inv3x3u recognises singularity), singular 2x2 matrices always recognised, relative error at most 2^-51 times the condition for 2x2 and the corresponding bound for 3x3, the same for inv3x3 and inv3x3u.
* **C108** (A JaggedArray is an editable array that owns its entries). REFUTED: an array with rows of different widths refuses every item assignment with TypeError, and a JaggedArray made from a 2d array shares its entries with that array (and with what to_array and to_numpy return). Proved for every history: what is shared and what is not, the exact effect of an assignment on all objects, the positions accepted, that awkward arrays never change and that lists and dense copies are independent.
* **C109** (linspace between two points in double precision: ends, order, box and accuracy). REFUTED for N = 1 (ZeroDivisionError), for coinciding ends and for differences that overflow (interior points are NaN). Proved for N from 2 to 2^50 and coordinates that agree or differ by 2^-200 to 2^200, with any length in that range, however inaccurate, that the norm returned: error at most 6 u |p1 - p0| + u max(|p0|, |p1|), every point inside the box of the ends and the sequence monotone in every coordinate; the ends are exact for all N from 2.
* **C110** (who owns the arrays of a genetic algorithm). REFUTED for programs that edit memory the solver holds: an edit of ga.genotypes after the fitness was read leaves phenotypes and fitness behind, and the next cycle crowns a champion whose genotype does not have the phenotype and fitness reported with it; an edit of state.x edits the champion. Proved: snapshots without restriction, coherence for all programs that edit only what the solver does not hold at that time, the champion is out of reach of all array edits, assignment recovers from any edits, state.x is the champion's phenotype at all times.
* **C111** (isclose and allclose in double precision). REFUTED: answers at the boundary are not the exact ones (2^53 - 1 and -2 count as within 2^53), no infinity is close to itself, and with a relative tolerance the order of the arguments matters. Proved for all finite numbers: pairs within the tolerances are never missed, overflow included; pairs accepted are within tolerances larger by a factor 1 + 3 u, plus 2^-1074 where the scaled tolerance is denormal; reflexivity, monotonicity in the tolerances, symmetry for absolute tolerances.
* **C112** (The transpose of a frame). REFUTED for RectangularFrame: with axes (1, 1), (2, -2) the call raises AssertionError, since orthogonal rows do not make orthogonal columns. Proved for the other two classes; for rectangular frames the call succeeds exactly if the columns are orthogonal (zero tolerances).
* **C113** (normalize and normalize2d in double precision). REFUTED for vectors of zeros: every entry of the result is NaN, without an error. Proved for all other vectors of finite numbers and all norms with a relative error up to 1/4 (an oracle: numpy.linalg.norm is not modelled): entrywise relative error 4/3 (d + 2^-53) plus half the smallest denormal, sum of squares 1 up to 4 (d + 2^-53) plus a multiple of it; range, order and signs for norms that are not less than any entry.
* **C114** (An array of components names the frame of the components). REFUTED: a view that was taken before v.frame = g shares the new numbers but names the old frame; v.array.frame = g changes the vector and leaves it registered with the old frame; Vector(v.array) ignores the frame that the array names. Proved for all histories: vectors change only by the statements meant to, copies keep what they say, views agree with the vector while both name the same frame, registration is right without assignments to the frame of an array, what writes do, and which statements raise.
* **C115** (dtype predicates, and equal rows of machine integers). REFUTED: float32 arrays are no float arrays and int32 arrays no integer arrays; the sum of differences is stored with the dtype of x, so that for every width rows at distance 2^(w-1) are reported as equal, and with unsigned integers the rows (1, 0) and (0, 1); for arrays with the same number of rows, int32 gives all pairs and int64 only the pairs (i, i). Proved: each predicate holds for one type; signed integers whose distances have a place in the type; unsigned integers in one column.
* **C116** (Calling a function object runs its value, whatever class it is of). REFUTED: f is bound to value when the class is made, so o.value and o(...) are different functions if value comes from a class outside the hierarchy that is mixed in first, is assigned to the class or to the object afterwards, or if a subclass defines f only. Proved: for all programs that define value, gradient and Hessian only, and only in class statements of deriving classes, calling runs what value is, for all combinations of bases; for all programs, a class statement with value makes f that function and leaves all other classes as they were; a class with one base can always be made and has what it does not define from its base.
* **C117** (Contractions of general tensors are right at every rank and after any history). REFUTED: for every rank from 14 on transform_components raises ValueError, because the labels run out of letters; a matrix with one column is accepted for every length. Proved: the rule of transformation up to rank 13 after any history, for rectangular matrices too; ValueError for matrices that do not fit, if no length is one; the dot product and its errors for all ranks and axes. C117_agrees: the result is that of the model of collections used for C87.
* **C14** (csr_matrix(data, indices, indptr) without a shape can hold all its entries). REFUTED: the inferred number of columns is the largest number of entries in a row; witness data=[1], indices=[5], indptr=[0,1] gets shape (1,1). Proved: the row count is right and conversion is safe exactly when all column indices are below the largest row length.
* **C18** (rooted_level_structure always returns). REFUTED: the loop never ends as soon as one node is not reachable from the root. Proved: it returns exactly when the root reaches every node.
* **C25** (Small populations work). REFUTED: population size 4 always raises RuntimeError, and so do fewer than three genes once a crossover is drawn. Proved: sizes from 8 with at least three genes always work.
* **C30** (Rejected parameters leave the solver unchanged). REFUTED: attributes are assigned before validation, and minimize then disagrees with the champion comparison. Proved: on success exactly the given values are in force.
* **C31** (Every accepted elitism value works as documented). REFUTED: None, 1.0 and odd elites above half the population are accepted and always crash; a small fraction keeps nobody. Proved: every other accepted value works and keeps the documented number.
* **C34** (linsolve solves every regular system and rejects every singular one). REFUTED: [[0,1],[1,0]] is rejected (no row exchange), Gauss-Jordan returns non-finite numbers for [[1,1],[1,1]], and a dropped factor gives a wrong solution of a regular system. Proved instead: singular systems are never solved, and the solved systems are exactly those whose leading blocks are all regular (small enough pivot threshold).
* **C35** (The closed-form 2x2 and 3x3 inverses are inverses). REFUTED for integer arrays only: inv2x2 stores its quotients into an array of the input's type, so for the integer matrix [[2,0],[0,2]] it returns zeros. Proved for real-valued matrices (exact arithmetic, any ordered field): all closed-form inverses are two-sided inverses exactly when the determinant is not zero, and all entries are non-finite (or ZeroDivisionError) otherwise.
* **C36** (det2x2 and det3x3 return the determinant). REFUTED: the kernels bind their output argument instead of writing to it, so the result is the uninitialised output buffer. The expression computed and dropped is the determinant.
* **C39** (A tensor's physical value survives every change of its frame). REFUTED for CartesianFrames whose axes are assigned a non-orthonormal matrix (the setter does not check, dual() still returns the frame itself). Proved for all histories in which CartesianFrames only get orthonormal axes, including garbage collection, class-changing in-place operators and exceptions. Element writes are C73.
* **C41** (Subtracting a number in place subtracts it). REFUTED: t -= s adds s. The other operators with numbers are right.
* **C42** (Dot products do not depend on the frames of the operands). REFUTED for dot(vector, tensor): it multiplies by the tensor instead of its transpose, and by A^T A of the vector's frame. dot(v,w), dot(T,v), dot(T,S) and the general contraction are proved frame independent; the exact value of dot(v,T) and the cases where it is right are proved.
* **C43** (Cross products do not depend on the frames of the operands). REFUTED in frames that are not orthonormal or are left-handed. The exact value is proved; it is right in right-handed orthonormal frames. Tensor-vector products are proved in all frames.
* **C45** (Copying a vector or tensor keeps the physical quantity). REFUTED: copy() and deepcopy() forget the frame. copy.copy and copy.deepcopy are right; copy() is right in the standard frame.
* **C46** (A frame shows itself consistently in every target frame). REFUTED: frame.show(target) lists the components of the target in the frame, transposed. Right for a frame in itself, without target and between orthonormal frames.
* **C47** (The metric tensor, volume and Cartesian shortcuts of frames agree with their definitions). REFUTED: the metric tensor is built from covariant components as if they were contravariant, volume() is never negative, and the shortcuts of a CartesianFrame survive the assignment of other axes. Right for orthonormal axes; volume() is the absolute value of the determinant.
* **C48** (The arrays handed to the LP solver describe the stated problem). REFUTED for linear constraints with a coefficient that is not a rational number (pi*x, sqrt(2)*x: read as 0) and for operators given as Python callables (>= passed on as <=, or the constraint is dropped). Proved for constraints made by the constructor with =, <=, >= whose simplified expression is a sum of numeric multiples of variables and constants.
* **C49** (An optimum of the arrays is an optimum of the problem, with the right objective value). REFUTED for the reported value when the objective lists its variables in another order than the problem. Proved: the point is an optimum of the problem; the value is right when the orders agree.
* **C50** (Strict inequalities and nonlinear terms are not silently changed). REFUTED: x < 0 is represented by a different set for every shift and rounding; x**2 - 1 <= 0 is accepted and its nonlinear term dropped. Proved: in exact arithmetic the arrays admit exactly the points that satisfy strict constraints with the margin.
* **C51** (A relation string is split at its operator and evaluated as written). REFUTED for strings with a line break (text and operators after it are lost). Proved in full for strings without line breaks. C51_reading and C51_meaning say what texts of formulas (numbers, names, functions, the four operations, powers, signs, parentheses, blanks) mean.
* **C52** (Substitution replaces all variables at once). REFUTED: substitution is sequential (swapping variables fails), is ignored for string functions whose variables carry assumptions, and substituting for some of the variables gives a function that can not be called. Proved when no replacement mentions a variable replaced later.
* **C54** (Test functions have the documented optima). REFUTED for Rosenbrock with a != 1, and for Goldstein-Price, Beale and Himmelblau when SymPy's set of free symbols is iterated as (y, x). Proved: Matyas and Rosenbrock with a = 1 for every order, the others for the order (x, y).
* **C55** (Lagrange shape functions interpolate). REFUTED for a single node: sympy.symbols('c_1') is not iterable, so the call raises TypeError although the basis exists. For two or more distinct nodes the functions are proved to be the Lagrange basis (unique), their derivatives are right, and the approximation is the interpolating polynomial. Symbolic inversion is an oracle with the contract inv_ok.
* **C56** (The least squares fit minimises the weighted squared error). REFUTED for points given as rows of one coordinate (a ragged array is built and ValueError raised). For flat arrays and rows of two or three coordinates: the fit exists iff the points of positive weight determine the polynomials, its value is everywhere that of the unique polynomial of least weighted squared error, polynomials are reproduced. Exact arithmetic; np.linalg.inv is an oracle with the contract inv_ok.
* **C57** (The derivatives of a least squares fit are the derivatives of the fit). REFUTED for weighted fits with a cubic weight at a fixed core (the reported gradient adds the gradient of a weight that does not move) and for moving fits with the singular weight (a zero gradient is reported for a fit that is not flat). Proved over the reals for unweighted fits, fixed constant and singular weights, moving fits with no weight or a constant weight, constant weights with a support off its boundary, and cubic weights further than 1e-12 from every data point; second derivatives follow the exact rule for derivatives of an inverse.
* **C58** (The cubic weight function is a smooth bump with consistent derivatives). REFUTED: the returned gradient is the derivative with respect to the core, so it has the wrong sign with respect to the point; the Hessian at the core is zero instead of -8/dm^2; closer than 1e-12 to the core the gradient is reported as zero. Proved: values are between 0 and 1, positive inside and zero outside the support, once continuously differentiable everywhere, and the gradient (up to its sign convention) and Hessian are right at every point away from the core and the boundary.
* **C59** (MLSApproximator averages the nearest neighbours). REFUTED: integer data are truncated after every addition (ones average to zero), a single neighbour is refused with SciPy, fewer source points than neighbours read memory beyond the data, and a grid of targets is refused or mixed. Proved for floating point data, a list of targets and at most as many neighbours as source points: every entry is the mean over the k nearest source points, within their bounds, exact for constants, linear in the data, the same in every schedule.
* **C61** (k_nearest_neighbours honours max_distance and query options). REFUTED: with SciPy 1.6 and later max_distance and all query options are ignored; the caller's dictionary is modified; Y=None is passed on. Proved for SciPy before 1.6 and for scikit-learn.
* **C62** (is_hermitian recognises hermitian matrices). REFUTED: only the shape is looked at. Proved: hermitian matrices are accepted.
* **C72** (The flags of a frame tell the truth). REFUTED: RectangularFrame.is_independent is True for a frame with a zero base vector. Right for ReferenceFrames and for proper frames of all classes.
* **C73** (Writing into the axes of a frame keeps the tensors registered with it). REFUTED: element writes change the axes behind the registered tensors.
* **C74** (Axes are taken over as the user sees them). REFUTED: the memory of the assigned array is read in C order, so transpose(inplace=True) does nothing. Rests on NumPy's documented buffer semantics.
* **C81** (Coefficients reproduce the function). REFUTED for normalised dictionaries of functions with two symbol-free terms (1 + pi: the last one overwrites the others) and for linear_coefficients of nonlinear functions (x**2 is listed). Proved: plain dictionaries of all symbolic functions, normalised ones with at most one symbol-free term, linear functions. SymPy's simplify is an oracle that preserves values.
* **C85** (is_linear recognises linear functions). REFUTED: x*y passes is_linear and is not affine; a function given as a callable without a Hessian passes whatever it computes. Proved: for symbolic functions True means affine in each variable separately (the documented 'at most linear in all of its variables').
* **C86** (generate_symbols yields one symbol per index). REFUTED: one index raises TypeError (list() of a single Symbol), none a ValueError. Proved for two or more indices.
* **C87** (A collection is transformed member by member). REFUTED: with one matrix, collections of vectors or fourth order tensors with two or more leading axes raise; fourth order tensors of dimension other than 3 come back with shape (3, 3, 3, 3); collections of the general class Tensor always raise ValueError. Proved for second order tensors of any dimension with any leading axes, for fourth order tensors in three dimensions otherwise, for vectors with at most one leading axis and for single tensors of any rank. Single general tensors: rule up to rank 13, ValueError beyond (the command itself is modelled for C117).
* **C88** (Vectors and tensors are created exactly from arrays of the documented shapes). REFUTED: is_bulk has a missing return and is None instead of False, also for collections of vectors created without the flag; the default frame of vectors of shape (5, 3) has dimension 5 and that of a Tensor2x3 of shape (5, 4, 3, 3) dimension 4; nested lists with a frame are not checked. Proved: the accepted shapes of arrays, the rank, is_bulk for the classes with a fixed rank, the default frame for single objects and flagged collections with one leading axis.
* **C89** (Operations on vectors, tensors and collections return objects of the same kind). REFUTED: the result is built without the flag bulk, so that all these operations raise ValueError on collections of Tensor2 and Tensor4, a collection of the class Tensor becomes a single tensor of the next rank, and a flagged collection of vectors loses its flag. Proved for single objects, for vectors without the flag and for collections of Tensor2x3 and Tensor4x3.
* **C90** (NumPy functions on tensors respect the frames). REFUTED: the product with the number on the left raises InvalidTensorOperationError. Proved: the rest.
* **C91** (A histogram reports the middle of every bin). REFUTED: for integer edges the positions have integer dtype and are truncated; the bins [0, 1] and [1, 2] are reported at 0 and 1. Proved for float edges, and for integer edges exactly where the sum of the two edges is even.
* **C92** (The squeeze decorator removes unit axes and changes nothing else). REFUTED: a tuple comes back as a list. Proved: everything else, including the members of the list.
* **C94** (Tests for symmetry and definiteness decide them). REFUTED: for matrices that are not symmetric the tests look at the eigenvalues only; a shear passes although its quadratic form takes negative values. Proved for symmetric matrices of any size (given that eigvals returns the roots of the characteristic polynomial), together with the random matrices and issymmetric.
* **C96** (The symbolic inverse is the inverse). REFUTED: the symbols P_{ij} used inside are replaced one after the other, so a matrix that contains them gives the inverse of another matrix; matrices of other shapes are not refused. Proved for 3x3 matrices without these symbols.
* **C97** (Array wrappers own their memory). REFUTED: an operator with assignment writes to the object but returns, and so binds the name to, a new wrapper; after b = a; a += 1; a += 1 the name b has missed the second assignment. Proved: everything else. Views of parts of arrays are not modelled.
* **C98** (Decoded phenotypes respect their ranges in double precision). REFUTED: with three genes and the range [0, 29] the code 111 is decoded to a number above 29; different codes may have the same value. Proved: finite, exact at the lower end, never below it, monotone, and within 2^-49 max(|lo|, |hi|) + 2^-1020 of the exact value.
* **C99** (linspace1d and bin_centers keep their points between the ends in double precision). REFUTED: fifty points from 0 to 1 do not reach 1, twelve points from -20 to 5 pass beyond 5, one point is NaN; a centre may coincide with an edge and overflows for large edges. Proved: exact start, monotone, close to the exact points; centres in the closed bins, without overflow up to 2^1000.

## 4. What is assumed of the libraries

These are hypotheses of the theorems (or arguments they quantify over), not axioms.

| contract | where | content |
|---|---|---|
| `sympy_ok` | FuncSpec.v | `simplify` keeps the value at every point and introduces no symbol; `free_symbols` is iterated in some order, each symbol once |
| `parse_text` | RelModel.v | SymPy's `parse_expr` on the fragment with numbers, names, functions of one argument, `+ - * / **`, signs and parentheses; C51_reading proves that it follows Python's grammar, where the power with exponent -1 is the reciprocal (`reciprocal`, ParseRead.v) |
| `degree_ok` | FuncCallSpec.v | `degree(e, v) <= 1` means affine in v |
| `inv_ok` | Inverse.v | `numpy.linalg.inv` / SymPy's matrix inverse: the inverse of a regular matrix, an exception otherwise |
| `leggauss_ok` | QuadSpec.v | n locations and weights for n > 0, `ValueError` otherwise; exactness of the 1d rule is a separate hypothesis where it is used |
| `scipy_ok`, `sklearn_ok` | LogicalSpec.v, MlsSpec.v | a k-nearest query returns k rows with right distances, nearest first, missing neighbours carrying the index \|X\| |
| `argsort` | GaSpec.v | some sorting permutation |
| random numbers | GaModel.v | arbitrary streams within the documented ranges |
| `linprog` | LpModel.v | an arbitrary answer; the theorems that need an optimum assume it for the arrays passed in |
| `ak.unflatten`, `ak.flatten`, `ak.num` | SparseModel.v | documented results |
| `numpy.linalg.norm`, `numpy.sqrt`, rotation matrices | Tensor*, Kern* | arbitrary functions with the hypotheses named in the statement |
| `numpy.linalg.matrix_rank` | LinModel.v | the rank |

Readings of library behaviour that the model relies on and that could not be run here:

* Numba compiles array accesses without bounds checks and truncates floats stored in
  integer arrays (C10, C35, C59, C91).
* `numpy.ndarray(buffer=...)` reads the memory of a contiguous array in C order (C74).
* `sympy.symbols` returns a single `Symbol` for one name and raises `ValueError` for an
  empty string (C55, C86); `degree(0)` is `-oo`.
* `numpy.histogram` returns integer edges for bins given as integers (C91); `numpy.squeeze`
  drops all axes of length one (C92); `subs` with a list of pairs replaces one symbol after
  the other (C96); the mixin of NumPy implements `x op= y` as `ufunc(x, y, out=(x,))` and
  the name is bound to what that returns (C97).
* scikit-learn's `query_radius` is given `k=...` by the code; a real scikit-learn refuses
  the keyword with `TypeError`.  The model leaves the answer of that call arbitrary (C61).

## 5. Trusted base

* Coq 8.16.1 kernel (`coqc`, checked again by `coqchk`), and the reading of the
  Python source by which the definitions were written.
* The statement and specification files (`XSpec.v`, `XProps.v`).
* Axioms: only those of the standard library that `Print Assumptions` lists (below).
  No axiom, parameter, functor or module type is declared in this development.
  Flocq (C98-C101, C104-C107, C109, C111, C113), Coquelicot and mathcomp add no axioms of their own.

### Modelled and not modelled

* `utils.py`, `arraysetops.py`, `knn.py`, `numint.py`, `logical.py`, `hist.py`,
  `decorate.py`: modelled; dtype predicates (`isfloatarray`, ...) and input/output
  helpers are not.
* `linalg/sparse/*`: the Python classes and the compiled helpers are modelled; the
  Numba type registration is modelled through boxing and unboxing of `csr_matrix` (C102);
  `__repr__` is not.
* `linalg/frame.py`, `vector.py`, `tensor.py`, `abstract.py`, `meta.py`, `tr.py`,
  `utils.py`, `logical.py`, `solve.py`: modelled.  Frames and tensors are single in
  TensorModel.v; collections are in KernModel.v (kernels) and CollModel.v (classes).
  Not modelled: `__repr__`/`__str__`, forwarding of arbitrary NumPy ufuncs by frames,
  `testing.py`.
* `graph/*`: modelled (networkx objects only through their adjacency arrays).
* `function/*`, `optimize/lp.py`: modelled; `to_latex`, `simplify` and plotting are not.
* `optimize/ga.py`, `bga.py`, `state.py`: modelled; multi-processing, logging and the
  deprecated alias `fittness` are not.
* `approx/*`: modelled; integer n-d data of the MLS approximator are not covered by the
  positive theorems (see C59), and matrices of the least-squares code are exact.
* `downloads.py`, `metautils.py`, `mathtypes.py`, `imap.py`: not modelled (no semantics
  beyond a constant or a forwarding call).
* Everywhere: NumPy, SciPy, Numba, SymPy, awkward internals (their documented results
  are used), floating point rounding and overflow
  (except C98-C101, C104-C107, C109, C111, C113), overflow of integers except in C115, memory layout except in C74, sharing of
  memory except in C39, C73, C97, C108, C110 and C114.

### Axioms per theorem (`Print Assumptions`)

* Closed under the global context: the 383 theorems of `MANIFEST.json` not listed below.
* `ClassicalDedekindReals.sig_forall_dec`, `ClassicalDedekindReals.sig_not_dec`, `Classical_Prop.classic`, `FunctionalExtensionality.functional_extensionality_dep`: `C100_monotone_partial`, `C100_error_partial`, `C100_refuted`, `C101_component`, `C101_round_trip`, `C104_error`, `C104_monotone`, `C104_exact_partial`, `C104_constants_refuted`, `C105_residual_partial`, `C105_factors_partial`, `C105_refuted`, `C106_error`, `C106_support_partial`, `C106_mirror`, `C106_refuted`, `C106_plane_refuted`, `C107_integers_2x2`, `C107_integers_3x3`, `C107_singular_2x2`, `C107_error_2x2`, `C107_error_3x3`, `C107_error_3x3u`, `C107_singular_3x3u`, `C107_singular_refuted`, `C107_regular_refuted`, `C107_ufunc_refuted`, `C109_ends`, `C109_error_partial`, `C109_between_partial`, `C109_monotone_partial`, `C109_refuted`, `C111_answers`, `C111_complete`, `C111_sound`, `C111_laws`, `C111_refuted`, `C113_unit_partial`, `C113_order_partial`, `C113_refuted`, `C55_derivatives`, `C57_unweighted`, `C57_fixed_constant`, `C57_fixed_singular`, `C57_moving_partial`, `C57_moving_default`, `C57_moving_constant`, `C57_moving_supported_partial`, `C57_moving_cubic_partial`, `C57_moving_singular_refuted`, `C58_smooth`, `C58_gradient_partial`, `C58_hessian_partial`, `C58_gradient_sign_refuted`, `C58_hessian_core_refuted`, `C58_gradient_near_refuted`, `C98_decode_partial`, `C98_rows`, `C98_refuted`, `C99_linspace_partial`, `C99_linspace_refuted`, `C99_bin_centers_partial`, `C99_bin_centers_refuted`.
* `ClassicalDedekindReals.sig_forall_dec`, `FunctionalExtensionality.functional_extensionality_dep`: `C53_exact_2d`, `C53_exact_3d`, `C54_matyas`, `C54_rosenbrock_partial`, `C54_rosenbrock_other_minimum_partial`, `C54_rosenbrock_refuted`, `C54_goldstein_price_partial`, `C54_beale_partial`, `C54_himmelblau_partial`, `C54_variable_order_refuted`, `C58_returns`, `C58_support`.
* `ClassicalDedekindReals.sig_forall_dec`, `ClassicalDedekindReals.sig_not_dec`, `FunctionalExtensionality.functional_extensionality_dep`: `C57_fixed_cubic_refuted`.
