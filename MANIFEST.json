{
 "claims": [
  {
   "property": "C01",
   "status": "proved",
   "theorems": [
    "C01_array_builders_schedule_independent",
    "C01_elementwise_kernels_schedule_independent",
    "C01_linalg_kernels_schedule_independent"
   ],
   "note": "All array builders of utils.py and all bulk kernels of linalg; each result is also given by value in C02-C08, C35, C44, C70, C71."
  },
  {
   "property": "C02",
   "status": "proved",
   "theorems": [
    "C02_repeat",
    "C02_repeat1d",
    "C02_tile",
    "C02_tile1d",
    "C02_repeat_diagonal_2d",
    "C02_writes_stay_inside"
   ],
   "note": "Every schedule, every shape; element type and arithmetic arbitrary, so rounding is covered."
  },
  {
   "property": "C03",
   "status": "proved",
   "theorems": [
    "C03_flatten2d"
   ],
   "note": ""
  },
  {
   "property": "C04",
   "status": "proved",
   "theorems": [
    "C04_clip1d",
    "C04_clip1d_wrong_order"
   ],
   "note": "Any ordered field."
  },
  {
   "property": "C05",
   "status": "proved",
   "theorems": [
    "C05_to_range_1d",
    "C05_to_range_1d_kernel",
    "C05_integer_input_truncated",
    "C05_defaults"
   ],
   "note": "Exact arithmetic, any ordered field."
  },
  {
   "property": "C06",
   "status": "proved",
   "theorems": [
    "C06_atleastnd",
    "C06_numbers",
    "C06_enough_axes",
    "C06_matrixform"
   ],
   "note": ""
  },
  {
   "property": "C07",
   "status": "proved",
   "theorems": [
    "C07_find1d",
    "C07_find2d",
    "C07_missing_value_unchecked"
   ],
   "note": ""
  },
  {
   "property": "C08",
   "status": "proved",
   "theorems": [
    "C08_unique2d_dense",
    "C08_unique2d_jagged",
    "C08_unique2d_dispatch"
   ],
   "note": ""
  },
  {
   "property": "C09",
   "status": "partial",
   "theorems": [
    "C09_float_rows_partial",
    "C09_integer_rows_partial",
    "C09_integer_square_partial",
    "C09_integer_square_refuted",
    "C09_mixed_types_refuted",
    "C09_different_columns_rejected"
   ],
   "note": "REFUTED for two integer arrays with equally many rows (only pairs (i,i) are found) and for an integer first and float second array (distances are truncated). Proved for float first arrays and for integer arrays with different row counts."
  },
  {
   "property": "C10",
   "status": "partial",
   "theorems": [
    "C10_count_cols_csr_out_of_bounds_refuted",
    "C10_count_cols_csr_refuted",
    "C10_count_cols_partial"
   ],
   "note": "REFUTED: count_cols_csr reads past the end of indptr for every input and subtracts column indices instead of pointers."
  },
  {
   "property": "C100",
   "status": "partial",
   "theorems": [
    "C100_monotone_partial",
    "C100_error_partial",
    "C100_refuted"
   ],
   "note": "REFUTED: the lower end of the source [1e16, 1e16 + 2] is mapped to the middle of the target (cancellation in the offset). Proved: monotone, and for sources, targets and values up to 2^200 the error is at most u (5 T + 9 b S + 6 b |v|) + 2^-600 with T the size of the target, S that of the source and b the slope, which explains the refutation: the ends are hit up to rounding unless the source is short for its distance from zero."
  },
  {
   "property": "C101",
   "status": "proved",
   "theorems": [
    "C101_component",
    "C101_round_trip"
   ],
   "note": "IEEE binary64 by Flocq; finite results."
  },
  {
   "property": "C102",
   "status": "partial",
   "theorems": [
    "C102_rows",
    "C102_compiled",
    "C102_through",
    "C102_write",
    "C102_sources",
    "C102_negative_refuted",
    "C102_writable"
   ],
   "note": "REFUTED: row(-1) is empty and row(-2) is the last row, since indptr has one entry more than there are rows. Proved: the row for every integer (negative ones shifted by one), agreement of compiled code for any surrounding memory, separation of matrices over all programs. Reference counts are not modelled."
  },
  {
   "property": "C103",
   "status": "partial",
   "theorems": [
    "C103_partial",
    "C103_vectors",
    "C103_rectangular_refuted"
   ],
   "note": "REFUTED: a stack with one leading axis of matrices that are not square raises (an empty one keeps its shape). Proved: all other shapes, every schedule."
  },
  {
   "property": "C104",
   "status": "partial",
   "theorems": [
    "C104_error",
    "C104_monotone",
    "C104_exact_partial",
    "C104_constants_refuted"
   ],
   "note": "REFUTED: ten equal values average to less than the value. Proved: error at most (k + 2) 2^-52 of the mean size for k neighbours, monotonicity, and exactness with the range for one, two and four neighbours."
  },
  {
   "property": "C105",
   "status": "partial",
   "theorems": [
    "C105_residual_partial",
    "C105_factors_partial",
    "C105_refuted"
   ],
   "note": "REFUTED: rows are never exchanged and pivots down to 1e-12 are accepted; a 2 x 2 system with entries up to 7 and a solution up to 2 is missed by more than 1e-4. Proved: the residual of every equation is bounded by n 2^-51 |L||U||x| for the factors computed on the way (plus skipped multipliers below 1e-12 and terms of order 2^-1073), and the factors are those of a matrix close to A in that sense. No prescribed unknowns."
  },
  {
   "property": "C106",
   "status": "partial",
   "theorems": [
    "C106_error",
    "C106_support_partial",
    "C106_mirror",
    "C106_refuted",
    "C106_plane_refuted"
   ],
   "note": "REFUTED: at a point just outside of the support the scaled distance rounds to one, where the value computed is -2^-52, and a factor like that makes weights of the plane negative. Proved: error at most 2^-47 (2^-46 in two dimensions), positive up to 1 - 2^-15 of the support, zero from 1 + 2^-51, exact symmetry."
  },
  {
   "property": "C107",
   "status": "partial",
   "theorems": [
    "C107_integers_2x2",
    "C107_integers_3x3",
    "C107_singular_2x2",
    "C107_error_2x2",
    "C107_error_3x3",
    "C107_error_3x3u",
    "C107_singular_3x3u",
    "C107_singular_refuted",
    "C107_regular_refuted",
    "C107_ufunc_refuted"
   ],
   "note": "REFUTED: a singular 3x3 matrix of integers of 18 bits gets an inverse of finite numbers, a regular 2x2 matrix with entries of about one raises ZeroDivisionError, and inv3x3u, which divides before it subtracts, does not return the rounded inverse of a matrix of integers up to 4. Proved: exact inverses rounded once and recognised singularity for integers (26 bits for 2x2, 16 bits for 3x3; inv3x3u recognises singularity), singular 2x2 matrices always recognised, relative error at most 2^-51 times the condition for 2x2 and the corresponding bound for 3x3, the same for inv3x3 and inv3x3u."
  },
  {
   "property": "C108",
   "status": "partial",
   "theorems": [
    "C108_shared",
    "C108_write",
    "C108_positions",
    "C108_stable",
    "C108_fresh",
    "C108_reads",
    "C108_kinds",
    "C108_assign_refuted",
    "C108_own_refuted"
   ],
   "note": "REFUTED: an array with rows of different widths refuses every item assignment with TypeError, and a JaggedArray made from a 2d array shares its entries with that array (and with what to_array and to_numpy return). Proved for every history: what is shared and what is not, the exact effect of an assignment on all objects, the positions accepted, that awkward arrays never change and that lists and dense copies are independent."
  },
  {
   "property": "C109",
   "status": "partial",
   "theorems": [
    "C109_ends",
    "C109_error_partial",
    "C109_between_partial",
    "C109_monotone_partial",
    "C109_refuted"
   ],
   "note": "REFUTED for N = 1 (ZeroDivisionError), for coinciding ends and for differences that overflow (interior points are NaN). Proved for N from 2 to 2^50 and coordinates that agree or differ by 2^-200 to 2^200, with any length in that range, however inaccurate, that the norm returned: error at most 6 u |p1 - p0| + u max(|p0|, |p1|), every point inside the box of the ends and the sequence monotone in every coordinate; the ends are exact for all N from 2."
  },
  {
   "property": "C11",
   "status": "proved",
   "theorems": [
    "C11_jagged_round_trip",
    "C11_bad_cuts_rejected",
    "C11_missing_cuts_rejected",
    "C11_list_of_matrices"
   ],
   "note": "ak.unflatten is modelled by its documented contract."
  },
  {
   "property": "C110",
   "status": "partial",
   "theorems": [
    "C110_snapshots",
    "C110_coherent",
    "C110_champion",
    "C110_assign",
    "C110_cycle",
    "C110_solution",
    "C110_refuted"
   ],
   "note": "REFUTED for programs that edit memory the solver holds: an edit of ga.genotypes after the fitness was read leaves phenotypes and fitness behind, and the next cycle crowns a champion whose genotype does not have the phenotype and fitness reported with it; an edit of state.x edits the champion. Proved: snapshots without restriction, coherence for all programs that edit only what the solver does not hold at that time, the champion is out of reach of all array edits, assignment recovers from any edits, state.x is the champion's phenotype at all times."
  },
  {
   "property": "C111",
   "status": "partial",
   "theorems": [
    "C111_answers",
    "C111_complete",
    "C111_sound",
    "C111_laws",
    "C111_refuted"
   ],
   "note": "REFUTED: answers at the boundary are not the exact ones (2^53 - 1 and -2 count as within 2^53), no infinity is close to itself, and with a relative tolerance the order of the arguments matters. Proved for all finite numbers: pairs within the tolerances are never missed, overflow included; pairs accepted are within tolerances larger by a factor 1 + 3 u, plus 2^-1074 where the scaled tolerance is denormal; reflexivity, monotonicity in the tolerances, symmetry for absolute tolerances."
  },
  {
   "property": "C112",
   "status": "partial",
   "theorems": [
    "C112_cartesian_partial",
    "C112_reference_partial",
    "C112_rectangular_partial",
    "C112_refuted"
   ],
   "note": "REFUTED for RectangularFrame: with axes (1, 1), (2, -2) the call raises AssertionError, since orthogonal rows do not make orthogonal columns. Proved for the other two classes; for rectangular frames the call succeeds exactly if the columns are orthogonal (zero tolerances)."
  },
  {
   "property": "C113",
   "status": "partial",
   "theorems": [
    "C113_unit_partial",
    "C113_order_partial",
    "C113_refuted"
   ],
   "note": "REFUTED for vectors of zeros: every entry of the result is NaN, without an error. Proved for all other vectors of finite numbers and all norms with a relative error up to 1/4 (an oracle: numpy.linalg.norm is not modelled): entrywise relative error 4/3 (d + 2^-53) plus half the smallest denormal, sum of squares 1 up to 4 (d + 2^-53) plus a multiple of it; range, order and signs for norms that are not less than any entry."
  },
  {
   "property": "C114",
   "status": "partial",
   "theorems": [
    "C114_vectors",
    "C114_copies",
    "C114_views",
    "C114_registered_partial",
    "C114_writes",
    "C114_errors",
    "C114_refuted"
   ],
   "note": "REFUTED: a view that was taken before v.frame = g shares the new numbers but names the old frame; v.array.frame = g changes the vector and leaves it registered with the old frame; Vector(v.array) ignores the frame that the array names. Proved for all histories: vectors change only by the statements meant to, copies keep what they say, views agree with the vector while both name the same frame, registration is right without assignments to the frame of an array, what writes do, and which statements raise."
  },
  {
   "property": "C115",
   "status": "partial",
   "theorems": [
    "C115_predicates_partial",
    "C115_rows_partial",
    "C115_unsigned_partial",
    "C115_assertion",
    "C115_refuted"
   ],
   "note": "REFUTED: float32 arrays are no float arrays and int32 arrays no integer arrays; the sum of differences is stored with the dtype of x, so that for every width rows at distance 2^(w-1) are reported as equal, and with unsigned integers the rows (1, 0) and (0, 1); for arrays with the same number of rows, int32 gives all pairs and int64 only the pairs (i, i). Proved: each predicate holds for one type; signed integers whose distances have a place in the type; unsigned integers in one column."
  },
  {
   "property": "C116",
   "status": "partial",
   "theorems": [
    "C116_calls_partial",
    "C116_defined",
    "C116_inherits",
    "C116_refuted"
   ],
   "note": "REFUTED: f is bound to value when the class is made, so o.value and o(...) are different functions if value comes from a class outside the hierarchy that is mixed in first, is assigned to the class or to the object afterwards, or if a subclass defines f only. Proved: for all programs that define value, gradient and Hessian only, and only in class statements of deriving classes, calling runs what value is, for all combinations of bases; for all programs, a class statement with value makes f that function and leaves all other classes as they were; a class with one base can always be made and has what it does not define from its base."
  },
  {
   "property": "C117",
   "status": "partial",
   "theorems": [
    "C117_transform_partial",
    "C117_dot",
    "C117_dot_errors",
    "C117_mismatch_partial",
    "C117_agrees",
    "C117_rank_refuted",
    "C117_mismatch_refuted"
   ],
   "note": "REFUTED: for every rank from 14 on transform_components raises ValueError, because the labels run out of letters; a matrix with one column is accepted for every length. Proved: the rule of transformation up to rank 13 after any history, for rectangular matrices too; ValueError for matrices that do not fit, if no length is one; the dot product and its errors for all ranks and axes. C117_agrees: the result is that of the model of collections used for C87."
  },
  {
   "property": "C12",
   "status": "proved",
   "theorems": [
    "C12_jagged_csr_dense"
   ],
   "note": ""
  },
  {
   "property": "C13",
   "status": "proved",
   "theorems": [
    "C13_dense_to_csr",
    "C13_eye"
   ],
   "note": ""
  },
  {
   "property": "C14",
   "status": "partial",
   "theorems": [
    "C14_inferred_shape_refuted",
    "C14_inferred_shape_partial"
   ],
   "note": "REFUTED: the inferred number of columns is the largest number of entries in a row; witness data=[1], indices=[5], indptr=[0,1] gets shape (1,1). Proved: the row count is right and conversion is safe exactly when all column indices are below the largest row length."
  },
  {
   "property": "C15",
   "status": "proved",
   "theorems": [
    "C15_lower_spdata",
    "C15_upper_spdata",
    "C15_parts_cover_and_share_diagonal"
   ],
   "note": ""
  },
  {
   "property": "C16",
   "status": "proved",
   "theorems": [
    "C16_stack_appends_rows",
    "C16_other_operands_rejected"
   ],
   "note": "The axis argument is ignored by the code."
  },
  {
   "property": "C17",
   "status": "proved",
   "theorems": [
    "C17_levels_are_distances"
   ],
   "note": "Fuel bound n is part of the statement; well-formedness = readable rows with in-range columns."
  },
  {
   "property": "C18",
   "status": "partial",
   "theorems": [
    "C18_always_returns_refuted",
    "C18_returns_iff_connected_partial"
   ],
   "note": "REFUTED: the loop never ends as soon as one node is not reachable from the root. Proved: it returns exactly when the root reaches every node."
  },
  {
   "property": "C19",
   "status": "proved",
   "theorems": [
    "C19_pseudo_peripheral_nodes",
    "C19_eccentricity_exists"
   ],
   "note": "Termination bound (n+1)^2+1 outer iterations."
  },
  {
   "property": "C20",
   "status": "proved",
   "theorems": [
    "C20_population_size",
    "C20_rejected"
   ],
   "note": ""
  },
  {
   "property": "C21",
   "status": "proved",
   "theorems": [
    "C21_children",
    "C21_no_crossover",
    "C21_crossover"
   ],
   "note": "At least 3 genes (otherwise NumPy refuses the draw of cuts, see C25)."
  },
  {
   "property": "C22",
   "status": "proved",
   "theorems": [
    "C22_mutation",
    "C22_binary",
    "C22_no_mutation"
   ],
   "note": ""
  },
  {
   "property": "C23",
   "status": "proved",
   "theorems": [
    "C23_decode",
    "C23_every_genotype",
    "C23_range",
    "C23_ends",
    "C23_injective",
    "C23_step"
   ],
   "note": "Exact arithmetic in an ordered field."
  },
  {
   "property": "C24",
   "status": "proved",
   "theorems": [
    "C24_pairs",
    "C24_odd",
    "C24_two"
   ],
   "note": "For n = 2 the generator yields nothing (C24_two), the cause of C25."
  },
  {
   "property": "C25",
   "status": "partial",
   "theorems": [
    "C25_refuted",
    "C25_few_genes_refuted",
    "C25_partial"
   ],
   "note": "REFUTED: population size 4 always raises RuntimeError, and so do fewer than three genes once a crossover is drawn. Proved: sizes from 8 with at least three genes always work."
  },
  {
   "property": "C26",
   "status": "proved",
   "theorems": [
    "C26_population"
   ],
   "note": "Histories are arbitrary lists of operations. NumPy argsort is an oracle with the contract \"some sorting permutation\"; random numbers are arbitrary streams."
  },
  {
   "property": "C27",
   "status": "proved",
   "theorems": [
    "C27_champion",
    "C27_elites"
   ],
   "note": "Histories are arbitrary lists of operations. NumPy argsort is an oracle with the contract \"some sorting permutation\"; random numbers are arbitrary streams."
  },
  {
   "property": "C28",
   "status": "proved",
   "theorems": [
    "C28_solve",
    "C28_age"
   ],
   "note": "solve from scratch; fuel is at least max(1,maxiter), so termination is part of the statement. NumPy argsort is an oracle with the contract \"some sorting permutation\"; random numbers are arbitrary streams."
  },
  {
   "property": "C29",
   "status": "proved",
   "theorems": [
    "C29_evaluations",
    "C29_solve"
   ],
   "note": "Histories are arbitrary lists of operations. NumPy argsort is an oracle with the contract \"some sorting permutation\"; random numbers are arbitrary streams."
  },
  {
   "property": "C30",
   "status": "partial",
   "theorems": [
    "C30_refuted",
    "C30_partial",
    "C30_accepted_partial"
   ],
   "note": "REFUTED: attributes are assigned before validation, and minimize then disagrees with the champion comparison. Proved: on success exactly the given values are in force."
  },
  {
   "property": "C31",
   "status": "partial",
   "theorems": [
    "C31_none_refuted",
    "C31_one_refuted",
    "C31_odd_elite_refuted",
    "C31_small_fraction_refuted",
    "C31_partial",
    "C31_count_partial"
   ],
   "note": "REFUTED: None, 1.0 and odd elites above half the population are accepted and always crash; a small fraction keeps nobody. Proved: every other accepted value works and keeps the documented number."
  },
  {
   "property": "C32",
   "status": "proved",
   "theorems": [
    "C32_linsolve_solution",
    "C32_inputs_unchanged"
   ],
   "note": "Exact arithmetic over any ordered field; also uniqueness. Gauss-Jordan needs the returned numbers to be finite (last pivot unchecked); 'nothing_dropped' = the run agrees with the one that skips no factor."
  },
  {
   "property": "C33",
   "status": "proved",
   "theorems": [
    "C33_linsolve_prescribed"
   ],
   "note": "Same provisos as C32; also uniqueness of the constrained solution."
  },
  {
   "property": "C34",
   "status": "partial",
   "theorems": [
    "C34_regular_rejected_refuted",
    "C34_singular_accepted_refuted",
    "C34_wrong_solution_refuted",
    "C34_singular_partial",
    "C34_strongly_regular_solved_partial",
    "C34_solved_strongly_regular_partial"
   ],
   "note": "REFUTED: [[0,1],[1,0]] is rejected (no row exchange), Gauss-Jordan returns non-finite numbers for [[1,1],[1,1]], and a dropped factor gives a wrong solution of a regular system. Proved instead: singular systems are never solved, and the solved systems are exactly those whose leading blocks are all regular (small enough pivot threshold)."
  },
  {
   "property": "C35",
   "status": "partial",
   "theorems": [
    "C35_integer_refuted",
    "C35_inv2x2",
    "C35_inv2x2u",
    "C35_inv3x3",
    "C35_inv3x3u",
    "C35_adj3x3",
    "C35_bulk"
   ],
   "note": "REFUTED for integer arrays only: inv2x2 stores its quotients into an array of the input's type, so for the integer matrix [[2,0],[0,2]] it returns zeros. Proved for real-valued matrices (exact arithmetic, any ordered field): all closed-form inverses are two-sided inverses exactly when the determinant is not zero, and all entries are non-finite (or ZeroDivisionError) otherwise."
  },
  {
   "property": "C36",
   "status": "partial",
   "theorems": [
    "C36_refuted",
    "C36_expression_partial"
   ],
   "note": "REFUTED: the kernels bind their output argument instead of writing to it, so the result is the uninitialised output buffer. The expression computed and dropped is the determinant."
  },
  {
   "property": "C37",
   "status": "proved",
   "theorems": [
    "C37_dcm",
    "C37_dcm_meaning",
    "C37_show"
   ],
   "note": "Exact arithmetic in an arbitrary real field, any dimension and rank. Frames are proper: independent base vectors, orthogonal or orthonormal as the class says."
  },
  {
   "property": "C38",
   "status": "proved",
   "theorems": [
    "C38_dual_frames",
    "C38_dual_tensors",
    "C38_singular"
   ],
   "note": "Exact arithmetic in an arbitrary real field, any dimension and rank. "
  },
  {
   "property": "C39",
   "status": "partial",
   "theorems": [
    "C39_refuted",
    "C39_history_partial",
    "C39_value_is_shown",
    "C39_registered",
    "C39_moves",
    "C39_axes_assigned",
    "C39_singular_axes_refused",
    "C39_exceptions",
    "C39_created",
    "C39_components_assigned",
    "C39_class_changed",
    "C39_one_move"
   ],
   "note": "REFUTED for CartesianFrames whose axes are assigned a non-orthonormal matrix (the setter does not check, dual() still returns the frame itself). Proved for all histories in which CartesianFrames only get orthonormal axes, including garbage collection, class-changing in-place operators and exceptions. Element writes are C73."
  },
  {
   "property": "C40",
   "status": "proved",
   "theorems": [
    "C40_sums",
    "C40_multiples",
    "C40_shown"
   ],
   "note": "Exact arithmetic in an arbitrary real field, any dimension and rank. "
  },
  {
   "property": "C41",
   "status": "partial",
   "theorems": [
    "C41_refuted",
    "C41_partial"
   ],
   "note": "REFUTED: t -= s adds s. The other operators with numbers are right."
  },
  {
   "property": "C42",
   "status": "partial",
   "theorems": [
    "C42_refuted",
    "C42_frame_refuted",
    "C42_dot",
    "C42_contraction",
    "C42_vector_tensor_partial",
    "C42_components"
   ],
   "note": "REFUTED for dot(vector, tensor): it multiplies by the tensor instead of its transpose, and by A^T A of the vector's frame. dot(v,w), dot(T,v), dot(T,S) and the general contraction are proved frame independent; the exact value of dot(v,T) and the cases where it is right are proved."
  },
  {
   "property": "C43",
   "status": "partial",
   "theorems": [
    "C43_refuted",
    "C43_cross_partial",
    "C43_tensors"
   ],
   "note": "REFUTED in frames that are not orthonormal or are left-handed. The exact value is proved; it is right in right-handed orthonormal frames. Tensor-vector products are proved in all frames."
  },
  {
   "property": "C44",
   "status": "proved",
   "theorems": [
    "C44_functorial",
    "C44_symmetry",
    "C44_orthogonal",
    "C44_ranks",
    "C44_contraction",
    "C44_rank2_kernels",
    "C44_rank4_kernels"
   ],
   "note": "Any rank and dimension for the rule; the kernels under every schedule."
  },
  {
   "property": "C45",
   "status": "partial",
   "theorems": [
    "C45_refuted",
    "C45_partial"
   ],
   "note": "REFUTED: copy() and deepcopy() forget the frame. copy.copy and copy.deepcopy are right; copy() is right in the standard frame."
  },
  {
   "property": "C46",
   "status": "partial",
   "theorems": [
    "C46_refuted",
    "C46_partial"
   ],
   "note": "REFUTED: frame.show(target) lists the components of the target in the frame, transposed. Right for a frame in itself, without target and between orthonormal frames."
  },
  {
   "property": "C47",
   "status": "partial",
   "theorems": [
    "C47_refuted",
    "C47_partial"
   ],
   "note": "REFUTED: the metric tensor is built from covariant components as if they were contravariant, volume() is never negative, and the shortcuts of a CartesianFrame survive the assignment of other axes. Right for orthonormal axes; volume() is the absolute value of the determinant."
  },
  {
   "property": "C48",
   "status": "partial",
   "theorems": [
    "C48_arrays_describe_constraints_partial",
    "C48_cost_vector_partial",
    "C48_sparse_is_dense",
    "C48_symbolic_coefficient_refuted",
    "C48_callable_operator_refuted",
    "C48_arrays_built",
    "C48_objective_must_list"
   ],
   "note": "REFUTED for linear constraints with a coefficient that is not a rational number (pi*x, sqrt(2)*x: read as 0) and for operators given as Python callables (>= passed on as <=, or the constraint is dropped). Proved for constraints made by the constructor with =, <=, >= whose simplified expression is a sum of numeric multiples of variables and constants."
  },
  {
   "property": "C49",
   "status": "partial",
   "theorems": [
    "C49_optimum_of_problem_partial",
    "C49_failure_means_no_optimum_partial",
    "C49_reported_value_refuted"
   ],
   "note": "REFUTED for the reported value when the objective lists its variables in another order than the problem. Proved: the point is an optimum of the problem; the value is right when the orders agree."
  },
  {
   "property": "C50",
   "status": "partial",
   "theorems": [
    "C50_strict_refuted",
    "C50_nonlinear_refuted",
    "C50_strict_margin_partial"
   ],
   "note": "REFUTED: x < 0 is represented by a different set for every shift and rounding; x**2 - 1 <= 0 is accepted and its nonlinear term dropped. Proved: in exact arithmetic the arrays admit exactly the points that satisfy strict constraints with the margin."
  },
  {
   "property": "C51",
   "status": "partial",
   "theorems": [
    "C51_split_at_operator",
    "C51_relation_holds",
    "C51_reading",
    "C51_meaning",
    "C51_line_break_refuted"
   ],
   "note": "REFUTED for strings with a line break (text and operators after it are lost). Proved in full for strings without line breaks. C51_reading and C51_meaning say what texts of formulas (numbers, names, functions, the four operations, powers, signs, parentheses, blanks) mean."
  },
  {
   "property": "C52",
   "status": "partial",
   "theorems": [
    "C52_simultaneous_partial",
    "C52_swap_refuted",
    "C52_assumptions_refuted",
    "C52_partial_substitution_refuted"
   ],
   "note": "REFUTED: substitution is sequential (swapping variables fails), is ignored for string functions whose variables carry assumptions, and substituting for some of the variables gives a function that can not be called. Proved when no replacement mentions a variable replaced later."
  },
  {
   "property": "C53",
   "status": "proved",
   "theorems": [
    "C53_one_dimension",
    "C53_two_dimensions",
    "C53_three_dimensions",
    "C53_rejected",
    "C53_products_2d",
    "C53_products_3d",
    "C53_exact_2d",
    "C53_exact_3d"
   ],
   "note": "leggauss is an oracle with the contract leggauss_ok; integrals are Riemann integrals of Coquelicot."
  },
  {
   "property": "C54",
   "status": "partial",
   "theorems": [
    "C54_matyas",
    "C54_rosenbrock_partial",
    "C54_rosenbrock_other_minimum_partial",
    "C54_rosenbrock_refuted",
    "C54_goldstein_price_partial",
    "C54_beale_partial",
    "C54_himmelblau_partial",
    "C54_variable_order_refuted"
   ],
   "note": "REFUTED for Rosenbrock with a != 1, and for Goldstein-Price, Beale and Himmelblau when SymPy's set of free symbols is iterated as (y, x). Proved: Matyas and Rosenbrock with a = 1 for every order, the others for the order (x, y)."
  },
  {
   "property": "C55",
   "status": "partial",
   "theorems": [
    "C55_basis_partial",
    "C55_default_nodes_partial",
    "C55_basis_unique",
    "C55_derivatives",
    "C55_approximation_partial",
    "C55_repeated_nodes",
    "C55_lengths",
    "C55_single_node_refuted"
   ],
   "note": "REFUTED for a single node: sympy.symbols('c_1') is not iterable, so the call raises TypeError although the basis exists. For two or more distinct nodes the functions are proved to be the Lagrange basis (unique), their derivatives are right, and the approximation is the interpolating polynomial. Symbolic inversion is an oracle with the contract inv_ok."
  },
  {
   "property": "C56",
   "status": "partial",
   "theorems": [
    "C56_weighted_best_partial",
    "C56_unweighted_best_partial",
    "C56_moving_best_partial",
    "C56_library_weights",
    "C56_refused",
    "C56_column_points_refuted"
   ],
   "note": "REFUTED for points given as rows of one coordinate (a ragged array is built and ValueError raised). For flat arrays and rows of two or three coordinates: the fit exists iff the points of positive weight determine the polynomials, its value is everywhere that of the unique polynomial of least weighted squared error, polynomials are reproduced. Exact arithmetic; np.linalg.inv is an oracle with the contract inv_ok."
  },
  {
   "property": "C57",
   "status": "partial",
   "theorems": [
    "C57_unweighted",
    "C57_fixed_constant",
    "C57_fixed_singular",
    "C57_moving_partial",
    "C57_moving_default",
    "C57_moving_constant",
    "C57_moving_supported_partial",
    "C57_moving_cubic_partial",
    "C57_fixed_cubic_refuted",
    "C57_moving_singular_refuted"
   ],
   "note": "REFUTED for weighted fits with a cubic weight at a fixed core (the reported gradient adds the gradient of a weight that does not move) and for moving fits with the singular weight (a zero gradient is reported for a fit that is not flat). Proved over the reals for unweighted fits, fixed constant and singular weights, moving fits with no weight or a constant weight, constant weights with a support off its boundary, and cubic weights further than 1e-12 from every data point; second derivatives follow the exact rule for derivatives of an inverse."
  },
  {
   "property": "C58",
   "status": "partial",
   "theorems": [
    "C58_returns",
    "C58_support",
    "C58_smooth",
    "C58_gradient_partial",
    "C58_hessian_partial",
    "C58_gradient_sign_refuted",
    "C58_hessian_core_refuted",
    "C58_gradient_near_refuted"
   ],
   "note": "REFUTED: the returned gradient is the derivative with respect to the core, so it has the wrong sign with respect to the point; the Hessian at the core is zero instead of -8/dm^2; closer than 1e-12 to the core the gradient is reported as zero. Proved: values are between 0 and 1, positive inside and zero outside the support, once continuously differentiable everywhere, and the gradient (up to its sign convention) and Hessian are right at every point away from the core and the boundary."
  },
  {
   "property": "C59",
   "status": "partial",
   "theorems": [
    "C59_means_partial",
    "C59_returns_partial",
    "C59_schedule",
    "C59_bounds_partial",
    "C59_constant_partial",
    "C59_local_bounds_partial",
    "C59_linear_partial",
    "C59_integer_refuted",
    "C59_single_refuted",
    "C59_few_points_refuted",
    "C59_grid_refuted"
   ],
   "note": "REFUTED: integer data are truncated after every addition (ones average to zero), a single neighbour is refused with SciPy, fewer source points than neighbours read memory beyond the data, and a grid of targets is refused or mixed. Proved for floating point data, a list of targets and at most as many neighbours as source points: every entry is the mean over the k nearest source points, within their bounds, exact for constants, linear in the data, the same in every schedule."
  },
  {
   "property": "C60",
   "status": "proved",
   "theorems": [
    "C60_documented",
    "C60_numbers",
    "C60_rejected",
    "C60_reflexive",
    "C60_monotone",
    "C60_bounded",
    "C60_absolute_symmetric",
    "C60_relative_not_symmetric",
    "C60_reflexive_all_floats_refuted",
    "C60_allclose"
   ],
   "note": "Floats are an ordered field with infinities and NaN."
  },
  {
   "property": "C61",
   "status": "partial",
   "theorems": [
    "C61_old_scipy_partial",
    "C61_sklearn_partial",
    "C61_new_scipy_refuted",
    "C61_max_distance_refuted",
    "C61_caller_dict_refuted",
    "C61_default_points_refuted"
   ],
   "note": "REFUTED: with SciPy 1.6 and later max_distance and all query options are ignored; the caller's dictionary is modified; Y=None is passed on. Proved for SciPy before 1.6 and for scikit-learn."
  },
  {
   "property": "C62",
   "status": "partial",
   "theorems": [
    "C62_hermitian_accepted_partial",
    "C62_shape_only_partial",
    "C62_refuted"
   ],
   "note": "REFUTED: only the shape is looked at. Proved: hermitian matrices are accepted."
  },
  {
   "property": "C63",
   "status": "proved",
   "theorems": [
    "C63_predicates",
    "C63_tolerance",
    "C63_constructors"
   ],
   "note": "Zero tolerance; and the exact set of accepted frames for any tolerance. The norm is the Euclidean norm on the base vectors."
  },
  {
   "property": "C64",
   "status": "proved",
   "theorems": [
    "C64_linspace1d",
    "C64_linspace_vectors",
    "C64_linspace_equal_points_nan",
    "C64_bin_centers"
   ],
   "note": "Exact arithmetic; the norm is an arbitrary non-zero number in the model."
  },
  {
   "property": "C65",
   "status": "proved",
   "theorems": [
    "C65_left",
    "C65_right",
    "C65_dispatch"
   ],
   "note": "Also the four Moore-Penrose conditions and the exceptions for deficient ranks."
  },
  {
   "property": "C66",
   "status": "proved",
   "theorems": [
    "C66_permutation_tensor",
    "C66_cross"
   ],
   "note": ""
  },
  {
   "property": "C67",
   "status": "proved",
   "theorems": [
    "C67_bool_to_float"
   ],
   "note": ""
  },
  {
   "property": "C68",
   "status": "proved",
   "theorems": [
    "C68_tournaments"
   ],
   "note": "NumPy argsort is an oracle with the contract \"some sorting permutation\"; random numbers are arbitrary streams."
  },
  {
   "property": "C69",
   "status": "proved",
   "theorems": [
    "C69_reduce"
   ],
   "note": ""
  },
  {
   "property": "C70",
   "status": "proved",
   "theorems": [
    "C70_vpath"
   ],
   "note": "Exact arithmetic; the norm is an arbitrary function that is non-zero on p2 - p1."
  },
  {
   "property": "C71",
   "status": "proved",
   "theorems": [
    "C71_display_kernels"
   ],
   "note": "The norm is an oracle."
  },
  {
   "property": "C72",
   "status": "partial",
   "theorems": [
    "C72_refuted",
    "C72_partial"
   ],
   "note": "REFUTED: RectangularFrame.is_independent is True for a frame with a zero base vector. Right for ReferenceFrames and for proper frames of all classes."
  },
  {
   "property": "C73",
   "status": "partial",
   "theorems": [
    "C73_refuted"
   ],
   "note": "REFUTED: element writes change the axes behind the registered tensors."
  },
  {
   "property": "C74",
   "status": "partial",
   "theorems": [
    "C74_order_ignored",
    "C74_transpose_refuted",
    "C74_c_order_partial",
    "C74_transposed_array"
   ],
   "note": "REFUTED: the memory of the assigned array is read in C order, so transpose(inplace=True) does nothing. Rests on NumPy's documented buffer semantics."
  },
  {
   "property": "C75",
   "status": "proved",
   "theorems": [
    "C75_orient",
    "C75_normalize"
   ],
   "note": "The rotation matrix itself comes from SymPy and is an arbitrary orthogonal matrix."
  },
  {
   "property": "C76",
   "status": "proved",
   "theorems": [
    "C76_transpose"
   ],
   "note": ""
  },
  {
   "property": "C77",
   "status": "proved",
   "theorems": [
    "C77_full_rank"
   ],
   "note": "numpy.linalg.matrix_rank is taken to be the rank."
  },
  {
   "property": "C78",
   "status": "proved",
   "theorems": [
    "C78_random_matrices",
    "C78_congruence",
    "C78_unit_basis_vector"
   ],
   "note": ""
  },
  {
   "property": "C79",
   "status": "proved",
   "theorems": [
    "C79_offspring"
   ],
   "note": ""
  },
  {
   "property": "C80",
   "status": "proved",
   "theorems": [
    "C80_accepted",
    "C80_rejected"
   ],
   "note": ""
  },
  {
   "property": "C81",
   "status": "partial",
   "theorems": [
    "C81_coefficients",
    "C81_normalized_partial",
    "C81_normalized_refuted",
    "C81_linear_coefficients",
    "C81_nonlinear_listed_refuted",
    "C81_linear_selection",
    "C81_expression_coefficients"
   ],
   "note": "REFUTED for normalised dictionaries of functions with two symbol-free terms (1 + pi: the last one overwrites the others) and for linear_coefficients of nonlinear functions (x**2 is listed). Proved: plain dictionaries of all symbolic functions, normalised ones with at most one symbol-free term, linear functions. SymPy's simplify is an oracle that preserves values."
  },
  {
   "property": "C82",
   "status": "proved",
   "theorems": [
    "C82_accepted",
    "C82_rejected"
   ],
   "note": ""
  },
  {
   "property": "C83",
   "status": "proved",
   "theorems": [
    "C83_accepted",
    "C83_rejected"
   ],
   "note": ""
  },
  {
   "property": "C84",
   "status": "proved",
   "theorems": [
    "C84_variables",
    "C84_value",
    "C84_points",
    "C84_numeric"
   ],
   "note": "SymPy's simplify, free_symbols order and parse_expr are oracles (sympy_ok)."
  },
  {
   "property": "C85",
   "status": "partial",
   "theorems": [
    "C85_linear_in_each",
    "C85_higher_degree",
    "C85_product_refuted",
    "C85_numeric_refuted"
   ],
   "note": "REFUTED: x*y passes is_linear and is not affine; a function given as a callable without a Hessian passes whatever it computes. Proved: for symbolic functions True means affine in each variable separately (the documented 'at most linear in all of its variables')."
  },
  {
   "property": "C86",
   "status": "partial",
   "theorems": [
    "C86_symbols_partial",
    "C86_short_refuted"
   ],
   "note": "REFUTED: one index raises TypeError (list() of a single Symbol), none a ValueError. Proved for two or more indices."
  },
  {
   "property": "C87",
   "status": "partial",
   "theorems": [
    "C87_second_order",
    "C87_fourth_order_partial",
    "C87_vectors_partial",
    "C87_single_tensor_partial",
    "C87_two_axes_refuted",
    "C87_fourth_order_dimension_refuted",
    "C87_general_collection_refuted"
   ],
   "note": "REFUTED: with one matrix, collections of vectors or fourth order tensors with two or more leading axes raise; fourth order tensors of dimension other than 3 come back with shape (3, 3, 3, 3); collections of the general class Tensor always raise ValueError. Proved for second order tensors of any dimension with any leading axes, for fourth order tensors in three dimensions otherwise, for vectors with at most one leading axis and for single tensors of any rank. Single general tensors: rule up to rank 13, ValueError beyond (the command itself is modelled for C117)."
  },
  {
   "property": "C88",
   "status": "partial",
   "theorems": [
    "C88_accepted",
    "C88_rank",
    "C88_default_frame_partial",
    "C88_default_frame_refuted",
    "C88_is_bulk_partial",
    "C88_is_bulk_refuted",
    "C88_lists_refuted"
   ],
   "note": "REFUTED: is_bulk has a missing return and is None instead of False, also for collections of vectors created without the flag; the default frame of vectors of shape (5, 3) has dimension 5 and that of a Tensor2x3 of shape (5, 4, 3, 3) dimension 4; nested lists with a frame are not checked. Proved: the accepted shapes of arrays, the rank, is_bulk for the classes with a fixed rank, the default frame for single objects and flagged collections with one leading axis."
  },
  {
   "property": "C89",
   "status": "partial",
   "theorems": [
    "C89_componentwise_partial",
    "C89_transpose_partial",
    "C89_tensors_have_members",
    "C89_collections_refuted",
    "C89_flag_refuted"
   ],
   "note": "REFUTED: the result is built without the flag bulk, so that all these operations raise ValueError on collections of Tensor2 and Tensor4, a collection of the class Tensor becomes a single tensor of the next rank, and a flagged collection of vectors loses its flag. Proved for single objects, for vectors without the flag and for collections of Tensor2x3 and Tensor4x3."
  },
  {
   "property": "C90",
   "status": "partial",
   "theorems": [
    "C90_comparison",
    "C90_same_tensor",
    "C90_dispatch",
    "C90_negative",
    "C90_left_product_refuted"
   ],
   "note": "REFUTED: the product with the number on the left raises InvalidTensorOperationError. Proved: the rest."
  },
  {
   "property": "C91",
   "status": "partial",
   "theorems": [
    "C91_counts",
    "C91_centers_partial",
    "C91_integer_edges_partial",
    "C91_integer_edges_refuted"
   ],
   "note": "REFUTED: for integer edges the positions have integer dtype and are truncated; the bins [0, 1] and [1, 2] are reported at 0 and 1. Proved for float edges, and for integer edges exactly where the sum of the two edges is even."
  },
  {
   "property": "C92",
   "status": "partial",
   "theorems": [
    "C92_on_partial",
    "C92_off",
    "C92_tuple_refuted"
   ],
   "note": "REFUTED: a tuple comes back as a list. Proved: everything else, including the members of the list."
  },
  {
   "property": "C93",
   "status": "proved",
   "theorems": [
    "C93_equality",
    "C93_order"
   ],
   "note": "Fitness values are elements of an ordered field: no NaN."
  },
  {
   "property": "C94",
   "status": "partial",
   "theorems": [
    "C94_symmetric_partial",
    "C94_nonsymmetric_refuted",
    "C94_random",
    "C94_issymmetric"
   ],
   "note": "REFUTED: for matrices that are not symmetric the tests look at the eigenvalues only; a shear passes although its quadratic form takes negative values. Proved for symmetric matrices of any size (given that eigvals returns the roots of the characteristic polynomial), together with the random matrices and issymmetric."
  },
  {
   "property": "C95",
   "status": "proved",
   "theorems": [
    "C95_chop"
   ],
   "note": ""
  },
  {
   "property": "C96",
   "status": "partial",
   "theorems": [
    "C96_inverse_partial",
    "C96_symbols_refuted",
    "C96_shape_refuted"
   ],
   "note": "REFUTED: the symbols P_{ij} used inside are replaced one after the other, so a matrix that contains them gives the inverse of another matrix; matrices of other shapes are not refused. Proved for 3x3 matrices without these symbols."
  },
  {
   "property": "C97",
   "status": "partial",
   "theorems": [
    "C97_separate",
    "C97_constructor",
    "C97_write",
    "C97_ufunc",
    "C97_output",
    "C97_types",
    "C97_chop",
    "C97_operator",
    "C97_at",
    "C97_in_place_refuted"
   ],
   "note": "REFUTED: an operator with assignment writes to the object but returns, and so binds the name to, a new wrapper; after b = a; a += 1; a += 1 the name b has missed the second assignment. Proved: everything else. Views of parts of arrays are not modelled."
  },
  {
   "property": "C98",
   "status": "partial",
   "theorems": [
    "C98_decode_partial",
    "C98_rows",
    "C98_refuted"
   ],
   "note": "REFUTED: with three genes and the range [0, 29] the code 111 is decoded to a number above 29; different codes may have the same value. Proved: finite, exact at the lower end, never below it, monotone, and within 2^-49 max(|lo|, |hi|) + 2^-1020 of the exact value."
  },
  {
   "property": "C99",
   "status": "partial",
   "theorems": [
    "C99_linspace_partial",
    "C99_linspace_refuted",
    "C99_bin_centers_partial",
    "C99_bin_centers_refuted"
   ],
   "note": "REFUTED: fifty points from 0 to 1 do not reach 1, twelve points from -20 to 5 pass beyond 5, one point is NaN; a centre may coincide with an edge and overflows for large edges. Proved: exact start, monotone, close to the exact points; centres in the closed bins, without overflow up to 2^1000."
  }
 ]
}