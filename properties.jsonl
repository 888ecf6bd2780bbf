{"id": "C01", "title": "Parallel array builders are independent of the thread schedule", "statement": "repeat, repeat1d, tile, tile1d, repeat_diagonal_2d, count_cols, to_range_1d, find1d and the bulk transformations return the same array whatever order and interleaving the parallel loop iterations run in, and that array is the one the sequential loop computes.", "quantifier": "every input array, every N, and every interleaving of the element writes of the N parallel iterations", "why_tests_cant": "A test observes the few schedules the machine happened to pick; the claim is about all of them.", "anchors": ["src/sigmaepsilon/math/utils.py:repeat", "src/sigmaepsilon/math/utils.py:repeat1d", "src/sigmaepsilon/math/utils.py:tile", "src/sigmaepsilon/math/utils.py:tile1d", "src/sigmaepsilon/math/utils.py:repeat_diagonal_2d", "src/sigmaepsilon/math/utils.py:_to_range_1d_"]}
{"id": "C02", "title": "repeat, tile and repeat_diagonal_2d place every entry exactly where documented", "statement": "repeat(a,N)[i,r,c]=a[r,c]; repeat1d(a,N)[i*M+k]=a[k]; tile(a,da,N)[i,r,c]=a[r,c]+i*da[r,c]; tile1d likewise; repeat_diagonal_2d(a,N) is the N-block diagonal matrix of a with zeros elsewhere. The result has exactly the documented shape.", "quantifier": "all rectangular arrays a (and da of the same shape), all N and all index positions", "why_tests_cant": "Off-by-one slice bounds show up only at particular sizes; the claim covers all sizes and indices.", "anchors": ["src/sigmaepsilon/math/utils.py:repeat", "src/sigmaepsilon/math/utils.py:repeat1d", "src/sigmaepsilon/math/utils.py:tile", "src/sigmaepsilon/math/utils.py:tile1d", "src/sigmaepsilon/math/utils.py:repeat_diagonal_2d"]}
{"id": "C03", "title": "flatten2d is a lossless reindexing in both orders", "statement": "For an I by J array, flatten2d(a,'C')[i*J+j]=a[i,j] and flatten2d(a,'F')[j*I+i]=a[i,j]; the result has I*J entries, so the array can be rebuilt from either; flattening a in F order equals flattening its transpose in C order.", "quantifier": "all shapes and contents", "why_tests_cant": "Needs every shape, including empty and single row/column ones.", "anchors": ["src/sigmaepsilon/math/utils.py:flatten2dC", "src/sigmaepsilon/math/utils.py:flatten2dF", "src/sigmaepsilon/math/utils.py:flatten2d"]}
{"id": "C04", "title": "clip1d clips into the interval and changes nothing else", "statement": "With a_min<=a_max, every entry of clip1d(a,a_min,a_max) lies in [a_min,a_max], entries already inside are unchanged, entries outside move to the nearest limit, and clipping again changes nothing. If the limits are given in the wrong order every entry becomes a_max.", "quantifier": "all arrays and all limits", "why_tests_cant": "Order-theoretic statement over all values; a test samples a few.", "anchors": ["src/sigmaepsilon/math/utils.py:clip1d"]}
{"id": "C05", "title": "to_range_1d is the affine map between the two intervals", "statement": "For a non-degenerate source interval, to_range_1d maps source[0] to target[0], source[1] to target[1], maps the interior into the target interval preserving proportions, and mapping back with the intervals exchanged restores the input; for integer input arrays the result is truncated, so the endpoints need not be reached.", "quantifier": "all values and all intervals with source[0] != source[1], in exact arithmetic", "why_tests_cant": "A universally quantified algebraic identity.", "anchors": ["src/sigmaepsilon/math/utils.py:to_range_1d", "src/sigmaepsilon/math/utils.py:_to_range_1d_"]}
{"id": "C06", "title": "atleastnd only inserts unit axes", "statement": "atleastnd(a,n,front,back) has max(n, a.ndim) axes, the same entries in the same order, and the original shape appears unchanged after the inserted ones (front=True, back=False) or before them (all other combinations). matrixform turns an n-vector into an n by 1 column, keeps matrices and rejects higher rank.", "quantifier": "all shapes, all n and all four flag combinations", "why_tests_cant": "Shape law for every rank.", "anchors": ["src/sigmaepsilon/math/utils.py:atleastnd", "src/sigmaepsilon/math/utils.py:matrixform"]}
{"id": "C07", "title": "find1d and find2d return positions that look the values up again", "statement": "If every value of arr occurs in space, then space[find1d(arr,space)] equals arr, each returned index is the first occurrence, and if space has no repeated values the index is unique; find2d does the same row by row. A value that does not occur in space has no well-defined result: the code reads element 0 of an empty array without a check.", "quantifier": "all arrays arr and space", "why_tests_cant": "Depends on the position of matches and duplicates in arbitrary arrays.", "anchors": ["src/sigmaepsilon/math/utils.py:find1d", "src/sigmaepsilon/math/utils.py:find2d"]}
{"id": "C08", "title": "unique2d is a faithful, sorted factorisation of the array", "statement": "For dense and for jagged integer arrays: the unique array is strictly increasing and contains exactly the values of the input; unique[inverse] rebuilds the input with its shape; counts[k] is the number of occurrences of unique[k]; the index map lists for each unique value exactly the positions that hold it, each once and in row-major order; the optional outputs come back in the order index, inverse, counts.", "quantifier": "all dense and jagged integer arrays and all combinations of the three flags", "why_tests_cant": "The counts array is rebuilt while the index arrays are filled; only an invariant over the whole loop shows that no slot is skipped or overwritten.", "anchors": ["src/sigmaepsilon/math/arraysetops.py:unique2d", "src/sigmaepsilon/math/arraysetops.py:_unique1d_njit", "src/sigmaepsilon/math/arraysetops.py:_unique2d_njit"]}
{"id": "C09", "title": "indices_of_equal_rows lists all pairs of equal rows", "statement": "The pairs returned are exactly the pairs (i,j) for which row i of x and row j of y agree (L1 distance at most tol; exact for integer arrays), in row-major order.", "quantifier": "all pairs of arrays with the same number of columns, integer or float", "why_tests_cant": "The function takes four different code paths by dtype and shape; equivalence of all paths needs all inputs.", "anchors": ["src/sigmaepsilon/math/utils.py:indices_of_equal_rows", "src/sigmaepsilon/math/utils.py:indices_of_equal_rows_njit", "src/sigmaepsilon/math/utils.py:indices_of_equal_rows_square_njit"]}
{"id": "C10", "title": "count_cols_csr returns the number of stored entries of each row", "statement": "For a valid CSR pair (indptr, indices), count_cols_csr returns, for each row i, indptr[i+1]-indptr[i], without reading outside the arrays.", "quantifier": "all valid CSR index structures", "why_tests_cant": "Out-of-bounds reads go unnoticed in compiled code; a proof must account for every access.", "anchors": ["src/sigmaepsilon/math/utils.py:count_cols_csr"]}
{"id": "C100", "title": "to_range_1d maps the source into the target in double precision", "statement": "In IEEE double precision to_range_1d is monotone and maps the ends of the source interval to the ends of the target interval up to rounding.", "quantifier": "all finite intervals and values with finite results", "why_tests_cant": "Cancellation shows only for particular magnitudes.", "anchors": ["src/sigmaepsilon/math/utils.py:_to_range_1d_"]}
{"id": "C101", "title": "Transformed components are accurate in double precision whatever the order of summation", "statement": "When a vector is shown in a frame in IEEE double precision, every finite component differs from the exact one by at most ((1+u)^n - 1) times the sum of the magnitudes of the products plus an underflow term, and showing the result in the original frame restores the vector up to the corresponding bound and the deviation of the stored matrix from an orthogonal one, whatever order, grouping and fusing of operations the library chooses.", "quantifier": "all dimensions, all matrices and vectors of doubles, all orders of summation with or without fused multiply-add", "why_tests_cant": "The order of summation depends on the BLAS library and the machine; a test sees one of them.", "anchors": ["src/sigmaepsilon/math/linalg/utils.py:show_vector", "src/sigmaepsilon/math/linalg/utils.py:_show_vector", "src/sigmaepsilon/math/linalg/utils.py:_show_vectors", "src/sigmaepsilon/math/linalg/utils.py:_show_vectors_multi"]}
{"id": "C102", "title": "CSR matrices own their memory, in Python and in compiled code", "statement": "row(i) and irow(i) return the values and columns of the i-th row for every row number, count negative numbers from the end as sequences do, and raise IndexError otherwise; in compiled code they return the same wherever Python returns. A matrix returned from compiled code equals the one passed in and is a new one. The arrays a matrix is made from are copied; writing into a row, in Python or in compiled code, changes exactly that value of that matrix and nothing of any other matrix. SciPy's form of a matrix is a window on its values.", "quantifier": "all integers i, all valid CSR matrices, all contents of the memory around the arrays, all programs of constructions, passages through compiled code and writes", "why_tests_cant": "Aliasing has to be excluded for every program; compiled code reads memory without checks, so agreement must hold for every content of the surrounding memory.", "anchors": ["src/sigmaepsilon/math/linalg/sparse/csr.py:csr_matrix", "src/sigmaepsilon/math/linalg/sparse/csr.py:unbox_csr", "src/sigmaepsilon/math/linalg/sparse/csr.py:box_csr"]}
{"id": "C103", "title": "transpose_axes transposes every matrix of a stack", "statement": "transpose_axes exchanges the last two axes of an array of any dimension: entry (..., i, j) of the result is entry (..., j, i) of the argument and the shape is exchanged accordingly; arrays with fewer than two axes are returned unchanged; the result does not depend on the schedule of the threads.", "quantifier": "all arrays of any number of axes and any shape, all schedules of the parallel loop", "why_tests_cant": "There are three branches by dimension, one of them a parallel loop; shapes and schedules cannot be enumerated.", "anchors": ["src/sigmaepsilon/math/linalg/utils.py:transpose_axes", "src/sigmaepsilon/math/linalg/utils.py:_transpose_multi"]}
{"id": "C104", "title": "MLSApproximator averages in double precision", "statement": "In IEEE double precision the value of MLSApproximator at a point is the mean of the data at its neighbours up to rounding, never leaves the range of the data there, reproduces constant data exactly, and does not decrease when the data increase.", "quantifier": "all data, all numbers of neighbours, all target points", "why_tests_cant": "Rounding depends on every bit of the data; tests on a few numbers of neighbours miss those for which 1/k is not a double.", "anchors": ["src/sigmaepsilon/math/approx/mls.py:MLSApproximator", "src/sigmaepsilon/math/approx/mls.py:_approximate_2d", "src/sigmaepsilon/math/approx/mls.py:_approximate_nd"]}
{"id": "C105", "title": "linsolve is backward stable in double precision", "statement": "In IEEE double precision the solution that linsolve(A, b, method='Gauss-Jordan') returns satisfies every equation up to rounding: the residual is small in comparison with the entries of A and the solution, in proportion to the number of equations.", "quantifier": "all matrices and right-hand sides of doubles, of any size, for which the method returns finite numbers", "why_tests_cant": "Growth of rounding errors depends on the pivots met on the way; test systems are well behaved.", "anchors": ["src/sigmaepsilon/math/linalg/solve.py:linsolve", "src/sigmaepsilon/math/linalg/solve.py:_GaussJordan", "src/sigmaepsilon/math/linalg/solve.py:backsub"]}
{"id": "C106", "title": "Cubic weights in double precision", "statement": "In IEEE double precision the value of CubicWeightFunction is the exact weight up to rounding, is never negative, is zero outside of the support and positive inside, and does not change when the core and the point are exchanged.", "quantifier": "all cores, points and supports of doubles of ordinary size, in one and two dimensions; every C library whose powers are accurate to a unit in the last place", "why_tests_cant": "The polynomial cancels near the boundary of the support; whether the result keeps its sign depends on the last bits.", "anchors": ["src/sigmaepsilon/math/approx/functions.py:CubicWeightFunction"]}
{"id": "C107", "title": "Closed-form inverses in double precision", "statement": "In IEEE double precision inv2x2, inv3x3, inv3x3u and each slice of inv3x3_bulk return the inverse up to rounding in proportion to the condition of the matrix, reject singular matrices (ZeroDivisionError or non-finite numbers) and accept regular ones; for matrices of moderate integers the result is the exact inverse rounded once.", "quantifier": "all 2x2 and 3x3 matrices of doubles whose entries are zero or between 2^-150 and 2^150 in magnitude", "why_tests_cant": "Cancellation in the determinant depends on all the bits of the entries.", "anchors": ["src/sigmaepsilon/math/linalg/utils.py:inv2x2", "src/sigmaepsilon/math/linalg/utils.py:inv2x2u", "src/sigmaepsilon/math/linalg/utils.py:inv3x3", "src/sigmaepsilon/math/linalg/utils.py:inv3x3u", "src/sigmaepsilon/math/linalg/utils.py:inv3x3_bulk"]}
{"id": "C108", "title": "A JaggedArray is an editable array that owns its entries", "statement": "For every history of making arrays and JaggedArrays, taking to_array, to_numpy and to_list, and assigning items: an assignment J[i, j] = v to a position that exists (from either end) replaces that entry and no other, a position that does not exist raises IndexError; a JaggedArray has its own entries, so that it changes by assignments to it only and other objects do not change with it; lists from to_list are snapshots.", "quantifier": "all histories of the commands, all shapes and entries, all integer positions", "why_tests_cant": "Whether two objects share memory only shows in some later assignment of some history.", "anchors": ["src/sigmaepsilon/math/linalg/sparse/jaggedarray.py:JaggedArray.__setitem__", "src/sigmaepsilon/math/linalg/sparse/jaggedarray.py:JaggedArray.__getitem__", "src/sigmaepsilon/math/linalg/sparse/jaggedarray.py:get_data", "src/sigmaepsilon/math/linalg/sparse/jaggedarray.py:JaggedArray.to_numpy", "src/sigmaepsilon/math/linalg/sparse/jaggedarray.py:JaggedArray.to_array", "src/sigmaepsilon/math/linalg/sparse/jaggedarray.py:JaggedArray.to_list"]}
{"id": "C109", "title": "linspace between two points in double precision: ends, order, box and accuracy", "statement": "linspace(p0, p1, N) between two points returns N points of which the first and the last are the given ones to the bit; in between every coordinate differs from the exact evenly spaced one by rounding only, never leaves the interval between the two ends and moves monotonically from one to the other, whatever rounding errors the norm of the difference has.", "quantifier": "all finite double precision points of any dimension, all N", "why_tests_cant": "The step is multiplied and divided by the norm of the difference, so each coordinate depends on four roundings per step; overshooting the end by one unit in the last place would show for few triples of ends, length and N only.", "anchors": ["src/sigmaepsilon/math/linalg/utils.py:linspace", "src/sigmaepsilon/math/linalg/utils.py:_linspace"]}
{"id": "C11", "title": "JaggedArray round-trips through flat data and cuts", "statement": "JaggedArray(data, cuts).flatten(return_cuts=True) gives back (cuts, data) whenever the cuts are non-negative and add up to the data length; widths, len, size, shape and is_jagged agree with the rows; rows are the consecutive slices of data. A construction with cuts that do not add up is rejected.", "quantifier": "all data arrays and all cut sequences", "why_tests_cant": "All partitions, including empty rows and regular shapes that switch the storage to NumPy.", "anchors": ["src/sigmaepsilon/math/linalg/sparse/jaggedarray.py:JaggedArray", "src/sigmaepsilon/math/linalg/sparse/jaggedarray.py:get_data"]}
{"id": "C110", "title": "who owns the arrays of a genetic algorithm", "statement": "Genotypes, phenotypes, fitness, candidates, champion and reported solution that a program has read from a genetic algorithm are never changed by what the solver does later; the three population attributes always describe one population and the champion is always a decoded and evaluated individual, also when the program edits what it was given; assigning a population makes the solver forget everything it knew about the previous one.", "quantifier": "all programs of evolving, resetting, reading, copying, assigning and editing of entries, all objectives, populations and draws", "why_tests_cant": "Aliasing between cached arrays, the population and the champion shows only for particular orders of reading, editing and evolving.", "anchors": ["src/sigmaepsilon/math/optimize/ga.py:GeneticAlgorithm.genotypes", "src/sigmaepsilon/math/optimize/ga.py:GeneticAlgorithm.phenotypes", "src/sigmaepsilon/math/optimize/ga.py:GeneticAlgorithm.fitness", "src/sigmaepsilon/math/optimize/ga.py:GeneticAlgorithm.evolve", "src/sigmaepsilon/math/optimize/ga.py:GeneticAlgorithm.best_candidate", "src/sigmaepsilon/math/optimize/ga.py:GeneticAlgorithm.reset", "src/sigmaepsilon/math/optimize/ga.py:Genom"]}
{"id": "C111", "title": "isclose and allclose in double precision", "statement": "In double precision isclose(x1, x2, atol=a, rtol=r) answers True exactly for the pairs with |x1 - x2| <= a and |x1 - x2| <= |r x2|: no pair that meets the conditions is missed and pairs that are accepted meet them up to rounding; every number is close to itself, larger tolerances accept more, and with an absolute tolerance only the order of the arguments does not matter; allclose is the conjunction.", "quantifier": "all double precision numbers and tolerances, with overflow, denormals, infinities and NaN", "why_tests_cant": "The difference and the scaled tolerance are rounded; whether that can turn a True into a False depends on single bits, on overflow and on denormal numbers.", "anchors": ["src/sigmaepsilon/math/logical.py:isclose", "src/sigmaepsilon/math/logical.py:allclose"]}
{"id": "C112", "title": "The transpose of a frame", "statement": "frame.T (and frame.transpose()) returns a frame of the same class whose axes are the transposed axes; it is a proper frame again, and transposing twice returns the frame. For Cartesian frames it is the inverse orientation.", "quantifier": "all proper frames of the three classes, in any dimension, over any ordered field, with any tolerances of the checks", "why_tests_cant": "Whether the constructor of the class accepts the transposed axes depends on the axes; quantifies over all of them.", "anchors": ["src/sigmaepsilon/math/linalg/frame.py:ReferenceFrame.transpose", "src/sigmaepsilon/math/linalg/meta.py:FrameLike.T"]}
{"id": "C113", "title": "normalize and normalize2d in double precision", "statement": "normalize returns the unit vector of the direction of its argument: every entry is that of the exact unit vector up to a relative error of the size of the error of the norm plus rounding, and the length is 1 up to such an error; entries lie between -1 and 1 and keep their order and signs; normalize2d does this for every row, independently of the other rows; no vector of numbers gives a result that is not a number.", "quantifier": "all vectors of finite double precision numbers, of any length and magnitude, and all norm routines with a given relative error", "why_tests_cant": "The quotients are rounded and may be denormal; the bounds must hold for all magnitudes and lengths and for any norm routine.", "anchors": ["src/sigmaepsilon/math/linalg/utils.py:normalize", "src/sigmaepsilon/math/linalg/utils.py:normalize2d"]}
{"id": "C114", "title": "An array of components names the frame of the components", "statement": "The array of a vector (v.array), its slices and its copies name a frame. They always name the frame that their numbers refer to: what an array says, read in the frame that it names, is what the vector says. Only writing components changes a vector; moving vectors to other frames, new vectors, views and copies do not, a copy keeps what it says whatever happens to vectors, and every vector is registered with the frame that it names and with no other.", "quantifier": "all histories of creating vectors and collections (also from arrays), slicing, copying, naming another frame, writing components, assigning arrays, moving and transposing in place", "why_tests_cant": "Depends on which objects share memory at the time of each statement; quantifies over all histories.", "anchors": ["src/sigmaepsilon/math/linalg/meta.py:Array", "src/sigmaepsilon/math/linalg/meta.py:ArrayWrapper", "src/sigmaepsilon/math/linalg/meta.py:TensorLike.frame", "src/sigmaepsilon/math/linalg/meta.py:TensorLike.array", "src/sigmaepsilon/math/linalg/meta.py:TensorLike.transpose"]}
{"id": "C115", "title": "dtype predicates, and equal rows of machine integers", "statement": "isfloatarray, isintegerarray and isboolarray are True exactly for float, integer and boolean arrays, and the 1d variants for those with one axis. indices_of_equal_rows of two integer arrays returns the pairs of equal rows, whatever the integer type of the arrays.", "quantifier": "all scalar types; all arrays of signed and unsigned integers with any width up to 64 bits, all tolerances below 1", "why_tests_cant": "Overflow depends on the values and the type; quantifies over all arrays and types.", "anchors": ["src/sigmaepsilon/math/logical.py:isfloatarray", "src/sigmaepsilon/math/logical.py:isintegerarray", "src/sigmaepsilon/math/logical.py:isboolarray", "src/sigmaepsilon/math/logical.py:is1dfloatarray", "src/sigmaepsilon/math/logical.py:is1dintarray", "src/sigmaepsilon/math/utils.py:indices_of_equal_rows"]}
{"id": "C116", "title": "Calling a function object runs its value, whatever class it is of", "statement": "For every class that derives from Function, at any depth and with any combination of bases, calling an object runs the method value that the object has, g runs its gradient and G its Hessian; a class that has none of them uses the functions given to the constructor. Making a class changes nothing about the classes that exist.", "quantifier": "all programs of class statements with any bases and namespaces, assignments to classes and to objects, and constructions", "why_tests_cant": "Quantifies over all class hierarchies, including those with several bases, and all histories.", "anchors": ["src/sigmaepsilon/math/function/metafunction.py:ABCMeta_MetaFunction.__new__", "src/sigmaepsilon/math/function/metafunction.py:MetaFunction.__call__", "src/sigmaepsilon/math/function/metafunction.py:MetaFunction.f", "src/sigmaepsilon/math/function/metafunction.py:MetaFunction.g", "src/sigmaepsilon/math/function/metafunction.py:MetaFunction.G", "src/sigmaepsilon/math/function/testfunction.py:TestMinFunction2D", "src/sigmaepsilon/math/approx/functions.py:ConstantWeightFunction"]}
{"id": "C117", "title": "Contractions of general tensors are right at every rank and after any history", "statement": "transform_components of a general tensor returns, for every rank, the components by the rule of transformation, whatever tensors were transformed before (the commands are kept in a dictionary shared by all tensors), and raises ValueError for a matrix that does not fit. dot of general tensors contracts the two given axes, which may be counted from the end, and returns the other axes of the first tensor followed by those of the second, for ranks that sum up to at most 25; it raises ValueError for higher ranks and IndexError for axes that do not exist.", "quantifier": "all ranks, sizes, components, matrices (also rectangular), pairs of axes, and all histories of transformations", "why_tests_cant": "Quantifies over all ranks, axes and histories; the labels of the axes are made by arithmetic on characters.", "anchors": ["src/sigmaepsilon/math/linalg/tensor.py:Tensor.transform_components", "src/sigmaepsilon/math/linalg/utils.py:dot"]}
{"id": "C12", "title": "A jagged array and its CSR and dense forms hold the same entries", "statement": "For every jagged array, to_csr().row(i) is row i, irow(i) is 0..width-1, to_csr().shape is (number of rows, largest width), and to_numpy()[i,j] is entry j of row i, or zero beyond its width.", "quantifier": "all jagged arrays with at least one row", "why_tests_cant": "Index-pointer arithmetic over arbitrary widths, including empty rows.", "anchors": ["src/sigmaepsilon/math/linalg/sparse/jaggedarray.py:JaggedArray.to_csr", "src/sigmaepsilon/math/linalg/sparse/csr.py:csr_matrix", "src/sigmaepsilon/math/linalg/sparse/utils.py:_jagged_to_csr_data_", "src/sigmaepsilon/math/linalg/sparse/utils.py:get_shape_sp"]}
{"id": "C13", "title": "csr_matrix built from a dense array, or as an identity, represents that matrix", "statement": "csr_matrix(dense).to_numpy() is the dense matrix, and row(i)/irow(i) list all columns of row i (explicit zeros included); csr_matrix.eye(N).to_numpy() is the identity.", "quantifier": "all dense arrays and all N", "why_tests_cant": "All shapes including empty rows or columns.", "anchors": ["src/sigmaepsilon/math/linalg/sparse/csr.py:csr_matrix.__init__", "src/sigmaepsilon/math/linalg/sparse/csr.py:csr_matrix.eye", "src/sigmaepsilon/math/linalg/sparse/csr.py:csr_matrix.row"]}
{"id": "C14", "title": "csr_matrix(data, indices, indptr) without a shape can hold all its entries", "statement": "When the shape is not given, the shape inferred for a valid CSR triple is large enough for every stored column index, so that converting to SciPy or NumPy succeeds and keeps all entries.", "quantifier": "all valid CSR triples with at least one row", "why_tests_cant": "Depends on the relation between row widths and column indices, which no finite set of matrices covers.", "anchors": ["src/sigmaepsilon/math/linalg/sparse/csr.py:csr_matrix.__init__", "src/sigmaepsilon/math/linalg/sparse/utils.py:get_shape_sp"]}
{"id": "C15", "title": "lower_spdata and upper_spdata split a COO matrix at the diagonal", "statement": "lower_spdata keeps exactly the entries on and below the diagonal, upper_spdata exactly those on and above, both in input order with matching data, rows and columns; together they cover all entries and share exactly the diagonal ones.", "quantifier": "all COO triples of equal length", "why_tests_cant": "Statement about all sparsity patterns.", "anchors": ["src/sigmaepsilon/math/linalg/sparse/utils.py:lower_spdata", "src/sigmaepsilon/math/linalg/sparse/utils.py:upper_spdata"]}
{"id": "C16", "title": "Stacking jagged arrays appends their rows", "statement": "np.vstack and np.concatenate of JaggedArrays return the jagged array whose rows are the rows of the inputs in order; nothing is merged, lost or reordered.", "quantifier": "all non-empty lists of jagged arrays", "why_tests_cant": "All numbers of operands and widths, including operands stored densely.", "anchors": ["src/sigmaepsilon/math/linalg/sparse/jaggedarray.py:vstack", "src/sigmaepsilon/math/linalg/sparse/jaggedarray.py:concatenate"]}
{"id": "C17", "title": "rooted_level_structure returns the breadth-first distance levels", "statement": "On a connected graph the call returns; level k is exactly the sorted set of nodes at graph distance k from the root; the levels are non-empty, disjoint and cover all nodes.", "quantifier": "all connected adjacency structures in CSR form (directed reachability from the root) and all roots", "why_tests_cant": "Correctness for every graph needs an induction over levels.", "anchors": ["src/sigmaepsilon/math/graph/utils.py:rooted_level_structure"]}
{"id": "C18", "title": "rooted_level_structure always returns", "statement": "The call returns for every adjacency matrix and root.", "quantifier": "all graphs, connected or not", "why_tests_cant": "Non-termination cannot be observed by a test, only suspected.", "anchors": ["src/sigmaepsilon/math/graph/utils.py:rooted_level_structure"]}
{"id": "C19", "title": "pseudo_peripheral_nodes terminates and returns nodes of equal eccentricity, at least that of node 0", "statement": "On a connected undirected graph the search stops after finitely many level structures, because each restart strictly improves (depth, -width); the result lists the nodes farthest from some node r followed by r itself; all returned nodes have the same eccentricity, which is at least the eccentricity of node 0.", "quantifier": "all connected graphs with at least one node", "why_tests_cant": "Termination measure and maximality are statements about all graphs.", "anchors": ["src/sigmaepsilon/math/graph/utils.py:pseudo_peripheral_nodes"]}
{"id": "C20", "title": "The genetic algorithm rounds the population size up to a multiple of four", "statement": "The population size used is the smallest multiple of 4 not below the requested positive size; non-positive sizes are rejected.", "quantifier": "all integers requested", "why_tests_cant": "Arithmetic statement over all integers.", "anchors": ["src/sigmaepsilon/math/optimize/ga.py:GeneticAlgorithm.__init__"]}
{"id": "C21", "title": "Crossover is a position-wise exchange of the parents' genes", "statement": "For every random cut set and coin, before mutation, at every position one child carries the gene of one parent and the other child the gene of the other parent; both children have the parents' length; with p_c below the drawn number the parents are returned unchanged.", "quantifier": "all parents of the configured length, all sets of distinct cut points, both coin values", "why_tests_cant": "Randomised: tests see a few draws; the proof covers all.", "anchors": ["src/sigmaepsilon/math/optimize/bga.py:BinaryGeneticAlgorithm.crossover"]}
{"id": "C22", "title": "Mutation flips exactly the drawn genes and keeps genotypes binary", "statement": "mutate flips gene i exactly when the i-th drawn number is at most p_m, keeps every other gene, and maps 0/1 vectors to 0/1 vectors of the same length; with p_m below all draws nothing changes.", "quantifier": "all genotypes, probabilities and draws", "why_tests_cant": "Randomised.", "anchors": ["src/sigmaepsilon/math/optimize/bga.py:BinaryGeneticAlgorithm.mutate"]}
{"id": "C23", "title": "Decoding maps genotypes into the given ranges, hitting both ends", "statement": "decode interprets each gene block as a little-endian binary number k and returns lo+k*(hi-lo)/(2^length-1); the value lies within the range, all-zero genes give lo, all-one genes give hi, different blocks give different values when lo<hi, and adjacent numbers differ by exactly one precision step.", "quantifier": "all lengths >= 1, all ranges, all 0/1 genotypes", "why_tests_cant": "All 2^length codes for every length.", "anchors": ["src/sigmaepsilon/math/optimize/bga.py:BinaryGeneticAlgorithm.decode"]}
{"id": "C24", "title": "Parents are paired without repetition", "statement": "random_parents_generator applied to an even number n>=4 of genotypes yields n/2 pairs that together use every genotype exactly once, for every outcome of the random draws; odd n is rejected.", "quantifier": "all even n >= 4 and all random draws", "why_tests_cant": "Randomised; the property is about all draws.", "anchors": ["src/sigmaepsilon/math/optimize/ga.py:GeneticAlgorithm.random_parents_generator"]}
{"id": "C25", "title": "Small populations work", "statement": "Any accepted population size produces a solver that can be constructed: populate always succeeds.", "quantifier": "all accepted population sizes", "why_tests_cant": "Concerns a boundary of the parameter space for every random draw.", "anchors": ["src/sigmaepsilon/math/optimize/ga.py:GeneticAlgorithm.random_parents_generator", "src/sigmaepsilon/math/optimize/bga.py:BinaryGeneticAlgorithm.populate"]}
{"id": "C26", "title": "Every generation has nPop binary genotypes of the configured length", "statement": "After construction and after any number of evolution cycles the population consists of exactly nPop genotypes, each a 0/1 vector of dim*length genes.", "quantifier": "all histories of construction, evolve, fitness reads and best-candidate reads, all random draws, all valid parameters (population of at least 8, at least 3 genes, elite of at most half the population or even)", "why_tests_cant": "Invariant over unbounded histories and random draws.", "anchors": ["src/sigmaepsilon/math/optimize/bga.py:BinaryGeneticAlgorithm.populate", "src/sigmaepsilon/math/optimize/bga.py:BinaryGeneticAlgorithm.select", "src/sigmaepsilon/math/optimize/ga.py:GeneticAlgorithm.evolve"]}
{"id": "C27", "title": "The champion never gets worse and elites survive", "statement": "After every evolution cycle the champion is at least as good as before and at least as good as every individual of every generation seen so far (for minimisation and maximisation); the members of the elite appear unchanged in the next generation, so with elitism of at least one individual the best fitness of the population never worsens.", "quantifier": "all objective functions, histories and random draws", "why_tests_cant": "Unbounded random histories.", "anchors": ["src/sigmaepsilon/math/optimize/ga.py:GeneticAlgorithm._celebrate", "src/sigmaepsilon/math/optimize/ga.py:GeneticAlgorithm.best_candidate", "src/sigmaepsilon/math/optimize/ga.py:GeneticAlgorithm.divide", "src/sigmaepsilon/math/optimize/bga.py:BinaryGeneticAlgorithm.select"]}
{"id": "C28", "title": "solve performs between miniter and maxiter iterations and reports why it stopped", "statement": "A fresh solve terminates; the number of iterations n satisfies max(1,miniter) <= n <= max(1,maxiter); it stops at the first iteration at which (champion too old or n>=maxiter) and n>=miniter; the status is MAX_ITERATIONS_REACHED exactly when n>=maxiter, otherwise CONVERGED; the champion has then led for more than maxage iterations.", "quantifier": "all objective functions, random draws and parameter values with miniter <= maxiter", "why_tests_cant": "Termination and bounds over all runs.", "anchors": ["src/sigmaepsilon/math/optimize/ga.py:GeneticAlgorithm.solve", "src/sigmaepsilon/math/optimize/ga.py:GeneticAlgorithm.stopping_criteria"]}
{"id": "C29", "title": "The number of function evaluations is reported exactly", "statement": "state.n_fev equals nPop times the number of generations evaluated; the cached fitness always belongs to the current genotypes and each generation is evaluated at most once.", "quantifier": "all histories of evolve, solve and fitness reads", "why_tests_cant": "Cache coherence over all operation sequences.", "anchors": ["src/sigmaepsilon/math/optimize/ga.py:GeneticAlgorithm.fitness", "src/sigmaepsilon/math/optimize/ga.py:GeneticAlgorithm.genotypes", "src/sigmaepsilon/math/optimize/ga.py:GeneticAlgorithm.evaluate"]}
{"id": "C30", "title": "Rejected parameters leave the solver unchanged", "statement": "If set_solution_params raises, the parameters in force are those from before the call.", "quantifier": "all parameter combinations", "why_tests_cant": "Needs every failing combination and every prior state.", "anchors": ["src/sigmaepsilon/math/optimize/ga.py:GeneticAlgorithm.set_solution_params"]}
{"id": "C31", "title": "Every accepted elitism value works as documented", "statement": "Every elitism value accepted by set_solution_params (None, a fraction in (0,1], an integer between 1 and nPop-1) leads to a selection that succeeds and keeps the documented number of elites.", "quantifier": "all accepted elitism values", "why_tests_cant": "Boundary values of a parameter domain combined with random draws.", "anchors": ["src/sigmaepsilon/math/optimize/ga.py:GeneticAlgorithm.divide", "src/sigmaepsilon/math/optimize/bga.py:BinaryGeneticAlgorithm.select", "src/sigmaepsilon/math/optimize/bga.py:BinaryGeneticAlgorithm.populate"]}
{"id": "C32", "title": "linsolve returns solutions of the linear system", "statement": "When 'Jordan' or 'Gauss-Jordan' returns X without prescriptions, A X = B holds for every right-hand side, in exact arithmetic and provided no elimination factor was dropped by the 1e-12 threshold and no zero pivot is divided by; with inplace=False the inputs are unchanged.", "quantifier": "all square matrices, all right-hand sides", "why_tests_cant": "An elimination invariant over all sizes.", "anchors": ["src/sigmaepsilon/math/linalg/solve.py:linsolve", "src/sigmaepsilon/math/linalg/solve.py:_Jordan", "src/sigmaepsilon/math/linalg/solve.py:_GaussJordan", "src/sigmaepsilon/math/linalg/solve.py:backsub"]}
{"id": "C33", "title": "Prescribed unknowns take their values and the residual closes the system", "statement": "With presc_bool/presc_val, the returned X equals the prescribed values on the prescribed unknowns, the residual R vanishes on the free rows, and A X = B + R, in exact arithmetic under the same provisos.", "quantifier": "all systems, all prescription masks and values, both methods", "why_tests_cant": "All subsets of prescribed unknowns.", "anchors": ["src/sigmaepsilon/math/linalg/solve.py:linsolve", "src/sigmaepsilon/math/linalg/solve.py:backsub"]}
{"id": "C34", "title": "linsolve solves every regular system and rejects every singular one", "statement": "For every regular matrix 'Jordan' and 'Gauss-Jordan' return the solution, and for every singular matrix they raise LinAlgError.", "quantifier": "all square matrices", "why_tests_cant": "A claim about all regular and all singular matrices.", "anchors": ["src/sigmaepsilon/math/linalg/solve.py:_Jordan", "src/sigmaepsilon/math/linalg/solve.py:_GaussJordan"]}
{"id": "C35", "title": "The closed-form 2x2 and 3x3 inverses are inverses", "statement": "inv2x2, inv3x3, inv3x3u and each slice of inv3x3_bulk return the inverse of every matrix with non-zero determinant; adj3x3 satisfies A adj(A) = det(A) I for every A.", "quantifier": "all 2x2 and 3x3 matrices, all stack sizes", "why_tests_cant": "Polynomial identities in nine variables.", "anchors": ["src/sigmaepsilon/math/linalg/utils.py:inv2x2", "src/sigmaepsilon/math/linalg/utils.py:inv3x3", "src/sigmaepsilon/math/linalg/utils.py:inv3x3u", "src/sigmaepsilon/math/linalg/utils.py:adj3x3", "src/sigmaepsilon/math/linalg/utils.py:inv3x3_bulk"]}
{"id": "C36", "title": "det2x2 and det3x3 return the determinant", "statement": "Calling det2x2 or det3x3 on a matrix returns its determinant.", "quantifier": "all 2x2 and 3x3 matrices", "why_tests_cant": "Generalised ufunc outputs depend on whether the output buffer is written.", "anchors": ["src/sigmaepsilon/math/linalg/utils.py:det3x3", "src/sigmaepsilon/math/linalg/utils.py:det2x2"]}
{"id": "C37", "title": "Direction cosine matrices compose and invert", "statement": "For frames A, B, C given in the same ambient frame: transforming components from A to B and then from B to C equals transforming directly from A to C; transforming from A to A is the identity; transforming to B and back restores the components; A.dcm(target=B) equals B.dcm(source=A).", "quantifier": "all frames with linearly independent axes of any dimension, orthonormal or not", "why_tests_cant": "Matrix identities for all dimensions.", "anchors": ["src/sigmaepsilon/math/linalg/frame.py:ReferenceFrame.dcm", "src/sigmaepsilon/math/linalg/utils.py:dual_frame"]}
{"id": "C38", "title": "Dual frames are biorthogonal and dualisation is an involution", "statement": "Row i of a frame times row j of its dual is 1 if i=j else 0; the dual of the dual is the frame; the dual of an orthonormal frame is itself; the Gram matrix of the dual is the inverse Gram matrix; the components of vector.dual() in the dual frame describe the same physical vector.", "quantifier": "all frames of any dimension", "why_tests_cant": "Matrix identities for all dimensions.", "anchors": ["src/sigmaepsilon/math/linalg/utils.py:dual_frame", "src/sigmaepsilon/math/linalg/utils.py:Gram", "src/sigmaepsilon/math/linalg/vector.py:Vector.dual", "src/sigmaepsilon/math/linalg/tensor.py:Tensor.dual"]}
{"id": "C39", "title": "A tensor's physical value survives every change of its frame", "statement": "Whatever sequence of operations is performed - assigning a new frame to a vector or tensor, assigning new axes to a frame, in-place arithmetic on a frame, re-orienting a frame in place - the components shown in the ambient frame stay the same for every vector and tensor registered with a frame, and the components in its own frame change consistently.", "quantifier": "all finite histories of frame and tensor operations on any number of tensors and frames with independent axes", "why_tests_cant": "Shared mutable state with a registry: only an invariant over histories settles it.", "anchors": ["src/sigmaepsilon/math/linalg/frame.py:ReferenceFrame.axes", "src/sigmaepsilon/math/linalg/frame.py:inplace_binary", "src/sigmaepsilon/math/linalg/meta.py:TensorLike.frame", "src/sigmaepsilon/math/linalg/meta.py:FrameLike._register_tensorial_"]}
{"id": "C40", "title": "Tensor arithmetic is frame independent", "statement": "a+b, a-b, -a, a*s, a/s and the in-place variants produce tensors whose components in any frame are the sums, differences and multiples of the operands' components in that frame, whatever frames the operands were given in.", "quantifier": "all vectors and second-order tensors, all frames, all scalars", "why_tests_cant": "Frame independence over all frames.", "anchors": ["src/sigmaepsilon/math/linalg/abstract.py:AbstractTensor"]}
{"id": "C41", "title": "Subtracting a number in place subtracts it", "statement": "t -= s for a number s changes every component c of t into c - s, consistently with t += (-s).", "quantifier": "all tensors and numbers", "why_tests_cant": "The existing tests exercise only some operand types.", "anchors": ["src/sigmaepsilon/math/linalg/abstract.py:AbstractTensor.__isub__"]}
{"id": "C42", "title": "Dot products do not depend on the frames of the operands", "statement": "dot(v,w), dot(T,v), dot(v,T) and dot(T,S) describe the usual contraction of the operands' ambient components, whatever frames the operands were given in and whatever target frame is requested.", "quantifier": "all vectors and second-order tensors of any dimension in any frames", "why_tests_cant": "Frame independence over all frames; tests use symmetric tensors or orthonormal frames.", "anchors": ["src/sigmaepsilon/math/linalg/utils.py:dot"]}
{"id": "C43", "title": "Cross products do not depend on the frames of the operands", "statement": "cross(v,w) describes the cross product of the ambient vectors, whatever frames the operands were given in.", "quantifier": "all 3d vectors in all frames", "why_tests_cant": "Frame independence over all frames.", "anchors": ["src/sigmaepsilon/math/linalg/utils.py:cross"]}
{"id": "C44", "title": "Component transformation of tensors is functorial and matches the generic rule", "statement": "Transforming the components of a second- or fourth-order tensor by Q is linear, transforming by P after Q equals transforming by PQ, transforming by I does nothing, the unrolled rank-4 routine equals the generic multilinear rule Q_ia Q_jb Q_kc Q_ld C_abcd, symmetry is preserved, and for orthogonal Q trace and full contraction are preserved.", "quantifier": "all tensors and matrices of the dimension handled, all bulk sizes", "why_tests_cant": "81-component polynomial identities.", "anchors": ["src/sigmaepsilon/math/linalg/tr.py:_tr_tensors2", "src/sigmaepsilon/math/linalg/tr.py:_tr_3333", "src/sigmaepsilon/math/linalg/tensor.py:Tensor.transform_components", "src/sigmaepsilon/math/linalg/imap.py:index_map_Voigt"]}
{"id": "C45", "title": "Copying a vector or tensor keeps the physical quantity", "statement": "v.copy() and v.copy(deep=True) describe the same vector as v in every frame.", "quantifier": "all vectors, tensors and frames", "why_tests_cant": "Needs frames other than the default.", "anchors": ["src/sigmaepsilon/math/linalg/vector.py:Vector.copy", "src/sigmaepsilon/math/linalg/tensor.py:Tensor.copy"]}
{"id": "C46", "title": "A frame shows itself consistently in every target frame", "statement": "frame.show(target) lists the components of the frame's base vectors in target; in particular showing in the ambient frame equals showing with no target, and showing a frame in itself is the identity.", "quantifier": "all pairs of frames", "why_tests_cant": "Only non-orthonormal frames distinguish the possible formulas.", "anchors": ["src/sigmaepsilon/math/linalg/frame.py:ReferenceFrame.show", "src/sigmaepsilon/math/linalg/frame.py:ReferenceFrame.dcm"]}
{"id": "C47", "title": "The metric tensor, volume and Cartesian shortcuts of frames agree with their definitions", "statement": "metric_tensor shown in the ambient frame is the identity; volume is the signed volume of the base vectors; for CartesianFrame the shortcut Gram, volume and dual agree with those of the equal ReferenceFrame throughout its life.", "quantifier": "all frames and all histories of axes assignments", "why_tests_cant": "Only left-handed, non-orthonormal or modified frames distinguish the cases.", "anchors": ["src/sigmaepsilon/math/linalg/frame.py:ReferenceFrame.metric_tensor", "src/sigmaepsilon/math/linalg/frame.py:ReferenceFrame.volume", "src/sigmaepsilon/math/linalg/frame.py:CartesianFrame"]}
{"id": "C48", "title": "The arrays handed to the LP solver describe the stated problem", "statement": "For linear objective and constraints, a point satisfies A_eq x = b_eq and A_ub x <= b_ub exactly when it satisfies every equality and every <= or >= constraint of the problem; the cost vector differs from the objective only by a constant and by the sign for maximisation; the sparse and dense assemblies give the same matrices.", "quantifier": "all numbers of variables and constraints, all coefficients, all points", "why_tests_cant": "Equivalence over all points of the space.", "anchors": ["src/sigmaepsilon/math/optimize/lp.py:LinearProgrammingProblem._to_scipy"]}
{"id": "C49", "title": "An optimum of the arrays is an optimum of the problem, with the right objective value", "statement": "If the solver returns an optimal point of the arrays, that point is feasible and optimal (minimal or maximal as requested) for the stated problem with non-strict constraints, and the reported value is the objective at that point.", "quantifier": "all linear problems and all solver answers that are optimal for the arrays", "why_tests_cant": "Optimality is a statement about all feasible points.", "anchors": ["src/sigmaepsilon/math/optimize/lp.py:LinearProgrammingProblem.solve"]}
{"id": "C50", "title": "Strict inequalities and nonlinear terms are not silently changed", "statement": "Strict constraints are represented faithfully (a point satisfies the arrays exactly when it satisfies the strict inequality) and problems with nonlinear terms are rejected.", "quantifier": "all constraints", "why_tests_cant": "Needs points arbitrarily close to the boundary and arbitrary nonlinear terms.", "anchors": ["src/sigmaepsilon/math/optimize/lp.py:LinearProgrammingProblem._to_scipy", "src/sigmaepsilon/math/function/function.py:Function.linear_coefficients", "src/sigmaepsilon/math/function/function.py:Function.is_linear"]}
{"id": "C51", "title": "A relation string is split at its operator and evaluated as written", "statement": "parse_expression returns (lhs, op, rhs) with the text of both sides unchanged up to surrounding blanks and op the relation that separates them; relations with none or several operators are rejected; the Relation built from it holds at a point exactly when lhs op rhs holds there.", "quantifier": "all strings, and all pairs of expressions and operators", "why_tests_cant": "All strings, including operators sharing a prefix (< and <=).", "anchors": ["src/sigmaepsilon/math/function/utils.py:parse_expression", "src/sigmaepsilon/math/function/relation.py:Relation.__init__", "src/sigmaepsilon/math/function/relation.py:Relation.relate"]}
{"id": "C52", "title": "Substitution replaces all variables at once", "statement": "f.subs(values) replaces every listed variable by its value simultaneously: the result evaluates like f at the substituted arguments.", "quantifier": "all expressions, variables and replacement values, including values that mention other variables", "why_tests_cant": "Depends on which variables the values mention.", "anchors": ["src/sigmaepsilon/math/function/symutils.py:substitute", "src/sigmaepsilon/math/function/function.py:Function.subs"]}
{"id": "C53", "title": "Tensor-product Gauss rules integrate products exactly", "statement": "gauss_points in 2 and 3 dimensions returns all pairs (triples) of the 1d points in row-major order with the product weights; the number of points is the product of the orders; the rule applied to a product of 1d functions is the product of the 1d rules, so if the 1d rules are exact up to some degree the product rule is exact for all polynomials of that degree in each variable. Orders that are not positive and other numbers of dimensions are rejected.", "quantifier": "all 1d rules (of any order) and all integrands", "why_tests_cant": "Exactness for a whole polynomial space and all orders.", "anchors": ["src/sigmaepsilon/math/numint.py:gauss_points", "src/sigmaepsilon/math/numint.py:gauss_points_2d", "src/sigmaepsilon/math/numint.py:gauss_points_3d"]}
{"id": "C54", "title": "Test functions have the documented optima", "statement": "Rosenbrock, Himmelblau, Goldstein-Price, Beale and Matyas attain their recorded optimal value at the recorded optimal point and nowhere take a smaller value.", "quantifier": "all points of the plane and all parameters of Rosenbrock", "why_tests_cant": "Global optimality over the plane.", "anchors": ["src/sigmaepsilon/math/function/functions.py"]}
{"id": "C55", "title": "Lagrange shape functions interpolate", "statement": "For pairwise different nodes, the 1d Lagrange functions are polynomials of degree below the number of nodes with value 1 at their node and 0 at the others, they sum to 1, reproduce every polynomial of degree below the number of nodes, and the approximation passes through the data; the returned derivatives are the derivatives of the returned functions.", "quantifier": "all numbers of nodes, all distinct nodes, all data", "why_tests_cant": "Any number of nodes.", "anchors": ["src/sigmaepsilon/math/approx/lagrange.py:gen_Lagrange_1d", "src/sigmaepsilon/math/approx/lagrange.py:approx_Lagrange_1d"]}
{"id": "C56", "title": "The least squares fit minimises the weighted squared error", "statement": "The coefficients used by least_squares and weighted_least_squares minimise the weighted sum of squared residuals over all coefficient vectors, and data that come from a combination of the basis functions are reproduced exactly.", "quantifier": "all point sets with a regular moment matrix, all data, all non-negative weights, all dimensions and degrees", "why_tests_cant": "Optimality over all coefficient vectors.", "anchors": ["src/sigmaepsilon/math/approx/ls.py:least_squares", "src/sigmaepsilon/math/approx/ls.py:weighted_least_squares", "src/sigmaepsilon/math/approx/ls_approx.py", "src/sigmaepsilon/math/approx/ls_preproc.py"]}
{"id": "C57", "title": "The derivatives of a least squares fit are the derivatives of the fit", "statement": "The gradient and Hessian returned with the fit are the partial derivatives of the returned approximation.", "quantifier": "all evaluation points, all data and all weight functions", "why_tests_cant": "Limit statement; finite differences only approximate it.", "anchors": ["src/sigmaepsilon/math/approx/ls.py:weighted_least_squares", "src/sigmaepsilon/math/approx/ls.py:moving_least_squares", "src/sigmaepsilon/math/approx/ls_approx.py"]}
{"id": "C58", "title": "The cubic weight function is a smooth bump with consistent derivatives", "statement": "CubicWeightFunction is non-negative, vanishes outside its support, is continuous with continuous derivative across the piece boundaries, and the reported gradient and Hessian are derivatives of the reported value.", "quantifier": "all cores, supports and evaluation points", "why_tests_cant": "Smoothness at all boundaries.", "anchors": ["src/sigmaepsilon/math/approx/functions.py:CubicWeightFunction"]}
{"id": "C59", "title": "MLSApproximator averages the nearest neighbours", "statement": "The approximation at a point is the mean of the data at its k nearest neighbours: it lies between their minimum and maximum, reproduces constants and is linear in the data.", "quantifier": "all data, all neighbour tables returned by the KNN backend, all k >= 1", "why_tests_cant": "All data types and neighbour tables.", "anchors": ["src/sigmaepsilon/math/approx/mls.py:MLSApproximator", "src/sigmaepsilon/math/approx/mls.py:_approximate_nd"]}
{"id": "C60", "title": "isclose accepts exactly the documented pairs", "statement": "isclose(x1,x2) broadcasts its arguments and is true exactly where every enabled tolerance test holds; on finite numbers and tolerances it is reflexive (an infinity or a NaN is not close to itself), monotone in the tolerances, never accepts a difference above atol, and invalid tolerances (missing, zero, negative, NaN) are rejected before anything is returned; the absolute test is symmetric, the relative one is not; allclose is true exactly if all entries are.", "quantifier": "all values and tolerances", "why_tests_cant": "Order statement over all reals.", "anchors": ["src/sigmaepsilon/math/logical.py:isclose", "src/sigmaepsilon/math/logical.py:allclose"]}
{"id": "C61", "title": "k_nearest_neighbours honours max_distance and query options", "statement": "With max_distance given, no neighbour farther than max_distance is returned; extra query options reach the backend; the caller's option dictionary is not modified.", "quantifier": "all point sets, options and SciPy versions handled", "why_tests_cant": "Backend-version dependent dispatch.", "anchors": ["src/sigmaepsilon/math/knn.py:k_nearest_neighbours"]}
{"id": "C62", "title": "is_hermitian recognises hermitian matrices", "statement": "is_hermitian(A) is true exactly when A is square and equal to its conjugate transpose.", "quantifier": "all arrays", "why_tests_cant": "A predicate is settled only by both directions for all inputs.", "anchors": ["src/sigmaepsilon/math/linalg/logical.py:is_hermitian"]}
{"id": "C63", "title": "Frame predicates recognise rectangular and orthonormal frames", "statement": "In exact arithmetic with zero tolerance, is_rectangular_frame holds exactly when the base vectors are pairwise orthogonal, is_orthonormal_frame exactly when the Gram matrix is the identity and is_independent_frame exactly when the base vectors are linearly independent.", "quantifier": "all square matrices of any size", "why_tests_cant": "Equivalences for all dimensions.", "anchors": ["src/sigmaepsilon/math/linalg/logical.py:is_rectangular_frame", "src/sigmaepsilon/math/linalg/logical.py:is_orthonormal_frame", "src/sigmaepsilon/math/linalg/logical.py:is_independent_frame"]}
{"id": "C64", "title": "linspace and bin_centers place their points evenly between the ends", "statement": "linspace of two different points (or two scalars, linspace1d) starts at the first, ends at the second and has N points with equal steps; for two equal vectors the interior points are NaN. bin_centers returns the midpoints, one fewer than the edges, each strictly between its edges when the edges increase.", "quantifier": "all end points (scalars or vectors), all N >= 2, all arrays of float edges (integer edges: C91)", "why_tests_cant": "All N.", "anchors": ["src/sigmaepsilon/math/linalg/utils.py:linspace", "src/sigmaepsilon/math/linalg/utils.py:linspace1d", "src/sigmaepsilon/math/hist.py:bin_centers"]}
{"id": "C65", "title": "The generalised inverses are one-sided inverses", "statement": "generalized_left_inverse(A) A = I when A has full column rank, A generalized_right_inverse(A) = I when A has full row rank, and generalized_inverse dispatches to the applicable one.", "quantifier": "all matrices of full row or column rank", "why_tests_cant": "All shapes.", "anchors": ["src/sigmaepsilon/math/linalg/utils.py:generalized_inverse", "src/sigmaepsilon/math/linalg/utils.py:generalized_left_inverse", "src/sigmaepsilon/math/linalg/utils.py:generalized_right_inverse"]}
{"id": "C66", "title": "The permutation tensor is the Levi-Civita symbol", "statement": "permutation_tensor(n) is the sign of the index permutation for permutations and 0 when an index repeats; it is antisymmetric, and in three dimensions it generates the cross product.", "quantifier": "all dimensions", "why_tests_cant": "All dimensions.", "anchors": ["src/sigmaepsilon/math/linalg/utils.py:permutation_tensor"]}
{"id": "C67", "title": "bool_to_float replaces every truth value", "statement": "bool_to_float(a, true, false) has the length of a, holds the 'true' value where a is True and the 'false' value elsewhere.", "quantifier": "all boolean arrays and all pairs of values", "why_tests_cant": "quantifies over all arrays and both values", "anchors": ["src/sigmaepsilon/math/utils.py:bool_to_float"]}
{"id": "C68", "title": "Every parent outside the elite won a tournament of three", "statement": "select returns the elite, best first, followed by winners of tournaments: each further parent is at least as good as two other distinct non-elite individuals of the current population; exactly enough of them are added to reach half the population.", "quantifier": "all fitness vectors, valid elitism values, minimisation and maximisation, all random draws, all tie-breaking orders of argsort", "why_tests_cant": "Randomised selection; tests see a few draws.", "anchors": ["src/sigmaepsilon/math/optimize/bga.py:BinaryGeneticAlgorithm.select"]}
{"id": "C69", "title": "reduce returns an equivalent triangular system", "statement": "When reduce returns (A', B') and no elimination factor was dropped, every vector that takes the prescribed values solves the free equations of A x = B exactly when it solves those of A' x = B', for every right-hand side; A' is upper triangular, for 'Jordan' diagonal (with non-zero diagonal) on the columns of the free unknowns; with inplace=False the inputs are unchanged.", "quantifier": "all square matrices, right-hand sides, prescription masks and values, both methods", "why_tests_cant": "An elimination invariant over all sizes and masks.", "anchors": ["src/sigmaepsilon/math/linalg/solve.py:reduce", "src/sigmaepsilon/math/linalg/solve.py:_Jordan", "src/sigmaepsilon/math/linalg/solve.py:_GaussJordan"]}
{"id": "C70", "title": "vpath returns evenly spaced points of a segment", "statement": "vpath(p1, p2, n) with n > 1 and p1 different from p2 returns n points, the first is p1, the last is p2 and point i is p1 + i/(n-1) (p2 - p1), whatever the length of the segment and the thread schedule.", "quantifier": "all pairs of different points of any dimension, all n > 1, all schedules", "why_tests_cant": "All dimensions, lengths and schedules; the length is a square root that must cancel exactly.", "anchors": ["src/sigmaepsilon/math/linalg/utils.py:vpath"]}
{"id": "C71", "title": "Bulk display and normalisation act on each vector separately", "statement": "Showing a stack of vectors or frames transforms each of them by the common, or by its own, matrix and by nothing else; transposing a stack transposes each matrix; normalize and norm of a stack work row by row. Every result is independent of the thread schedule.", "quantifier": "all stack sizes, dimensions, matrices, vectors and schedules", "why_tests_cant": "Index mixing between stack entries shows only for particular sizes and schedules.", "anchors": ["src/sigmaepsilon/math/linalg/utils.py:_show_vectors", "src/sigmaepsilon/math/linalg/utils.py:_show_vectors_multi", "src/sigmaepsilon/math/linalg/utils.py:_show_frames", "src/sigmaepsilon/math/linalg/utils.py:_show_frames_multi", "src/sigmaepsilon/math/linalg/utils.py:_transpose_multi", "src/sigmaepsilon/math/linalg/utils.py:normalize2d", "src/sigmaepsilon/math/linalg/utils.py:norm2d"]}
{"id": "C72", "title": "The flags of a frame tell the truth", "statement": "frame.is_rectangular, is_cartesian and is_independent answer whether the base vectors are pairwise orthogonal, orthonormal, linearly independent, whatever the class of the frame.", "quantifier": "all frames of the three classes that the constructors accept", "why_tests_cant": "The subclasses answer without looking at the axes, so only particular axes reveal a wrong answer.", "anchors": ["src/sigmaepsilon/math/linalg/frame.py:ReferenceFrame.is_independent", "src/sigmaepsilon/math/linalg/frame.py:RectangularFrame.is_independent", "src/sigmaepsilon/math/linalg/frame.py:CartesianFrame.is_cartesian"]}
{"id": "C73", "title": "Writing into the axes of a frame keeps the tensors registered with it", "statement": "Changing single elements of a frame (frame[i, j] = x, chop, or writing into the array that was assigned to its axes) does not change the physical value of the vectors and tensors registered with it.", "quantifier": "all frames, all tensors registered with them, all element writes", "why_tests_cant": "Needs a history: assign, register, write, show.", "anchors": ["src/sigmaepsilon/math/linalg/frame.py:ReferenceFrame.axes", "src/sigmaepsilon/math/linalg/meta.py:ArrayWrapper.__setitem__"]}
{"id": "C74", "title": "Axes are taken over as the user sees them", "statement": "After frame.axes = M the axes equal M whatever the memory layout of M, and frame.transpose(inplace=True) transposes the axes.", "quantifier": "all matrices and contiguous memory layouts", "why_tests_cant": "Depends on the memory order of the assigned array, not on its values.", "anchors": ["src/sigmaepsilon/math/linalg/frame.py:ReferenceFrame.axes", "src/sigmaepsilon/math/linalg/frame.py:ReferenceFrame.transpose", "src/sigmaepsilon/math/linalg/utils.py:transpose_axes"]}
{"id": "C75", "title": "Rotating and normalising frames keeps what it should", "statement": "Re-orienting a frame by a rotation keeps the scalar products of its base vectors and its class, and components taken along describe the rotated tensor; CartesianFrame(A, normalize=True) of an orthogonal frame A has orthonormal base vectors with the directions of A's.", "quantifier": "all frames, all orthogonal matrices, tensors of all ranks, all dimensions", "why_tests_cant": "Ranges over all rotations, frames and ranks.", "anchors": ["src/sigmaepsilon/math/linalg/frame.py:ReferenceFrame.orient", "src/sigmaepsilon/math/linalg/tensor.py:Tensor.orient", "src/sigmaepsilon/math/linalg/vector.py:Vector.orient", "src/sigmaepsilon/math/linalg/frame.py:CartesianFrame"]}
{"id": "C76", "title": "Transposing a tensor reverses its indices in every frame", "statement": "tensor.T and tensor.transpose(), in place or not, describe the ambient tensor with the order of the indices reversed, whatever the frame.", "quantifier": "all tensors of all ranks in all frames", "why_tests_cant": "Ranges over all ranks and frames.", "anchors": ["src/sigmaepsilon/math/linalg/meta.py:TensorLike.transpose"]}
{"id": "C77", "title": "The rank predicates", "statement": "has_full_row_rank(A) holds exactly when the rows of A are linearly independent, has_full_column_rank(A) exactly when the columns are, has_full_rank(A) exactly when one of them holds.", "quantifier": "all matrices of all shapes", "why_tests_cant": "Ranges over all shapes and ranks.", "anchors": ["src/sigmaepsilon/math/linalg/logical.py:has_full_row_rank", "src/sigmaepsilon/math/linalg/logical.py:has_full_column_rank", "src/sigmaepsilon/math/linalg/logical.py:has_full_rank"]}
{"id": "C78", "title": "Generated and congruent matrices are symmetric and definite", "statement": "random_pos_semidef_matrix and random_posdef_matrix return symmetric positive semidefinite and positive definite matrices whatever numbers are drawn; ATBA and ATBAw keep symmetry; unit_basis_vector has the value at its index and zeros elsewhere.", "quantifier": "all drawn matrices, all sizes, all positive shifts", "why_tests_cant": "Random input; a test sees only some draws.", "anchors": ["src/sigmaepsilon/math/linalg/utils.py:random_pos_semidef_matrix", "src/sigmaepsilon/math/linalg/utils.py:random_posdef_matrix", "src/sigmaepsilon/math/linalg/utils.py:ATBA", "src/sigmaepsilon/math/linalg/utils.py:unit_basis_vector"]}
{"id": "C79", "title": "A new generation is the selected parents followed by their children", "statement": "One evolution cycle replaces the population by the selected individuals (elite and tournament winners, in this order) followed by the children, two by two the complementary, mutated offspring (or copies) of disjoint pairs of the selected individuals.", "quantifier": "all histories of operations before the cycle, all objectives and valid parameters, all random draws, all tie-breaking orders", "why_tests_cant": "Concerns every random draw and an unbounded history; a test sees only sizes and a few draws.", "anchors": ["src/sigmaepsilon/math/optimize/bga.py:BinaryGeneticAlgorithm.populate", "src/sigmaepsilon/math/optimize/ga.py:GeneticAlgorithm.evolve"]}
{"id": "C80", "title": "Exactly the invalid parameters are rejected", "statement": "set_solution_params raises a ValueError exactly when, after the given values override those in force, the elitism value is a number that is not positive, a fraction above 1 or an integer above 1 that reaches the population size, or miniter exceeds maxiter.", "quantifier": "all parameters in force, all combinations of overrides, all population sizes", "why_tests_cant": "The parameter space is infinite and the checks interact with earlier values.", "anchors": ["src/sigmaepsilon/math/optimize/ga.py:GeneticAlgorithm.set_solution_params"]}
{"id": "C81", "title": "Coefficients reproduce the function", "statement": "The dictionary of coefficients of a symbolic function has every variable among its keys, no key twice, and the sum of coefficient times key is the function, normalised or not; for a linear function linear_coefficients does the same with variables and constants as the only keys, and for other functions lists only linear terms.", "quantifier": "all symbolic functions, all values of the variables, every simplification that preserves values", "why_tests_cant": "Expressions are an infinite family and the dictionary depends on how the simplified sum splits into terms; tests look at a few polynomials.", "anchors": ["src/sigmaepsilon/math/function/function.py:Function.coefficients", "src/sigmaepsilon/math/function/function.py:Function.linear_coefficients"]}
{"id": "C82", "title": "Exactly the well-posed problems are accepted", "statement": "LinearProgrammingProblem accepts a problem exactly when the objective and all constraints are symbolic functions and relations, the variables are symbols and each of them is a variable of the objective or of a constraint, and then stores what it was given; otherwise it raises a ValueError or a TypeError.", "quantifier": "all objectives, constraint lists, variable lists, bounds and integrality arguments", "why_tests_cant": "Any number of constraints and variables in any combination of kinds.", "anchors": ["src/sigmaepsilon/math/optimize/lp.py:LinearProgrammingProblem.__init__"]}
{"id": "C83", "title": "A relation has the operator it was given", "statement": "A relation compares with the operator given as op, else the one inside the string, else op_str, else equality; its function is the given one, or left minus right if the operator is inside the string; Relation yields an Equality or InEquality instance accordingly, Equality and InEquality refuse operators of the other kind, and unknown operators are a ValueError.", "quantifier": "all sources (strings, expressions, callables), all operator arguments, all classes", "why_tests_cant": "Strings and the combinations of ways to give an operator are unbounded.", "anchors": ["src/sigmaepsilon/math/function/relation.py:Relation.__init__", "src/sigmaepsilon/math/function/relation.py:Relation.__new__", "src/sigmaepsilon/math/function/relation.py:Equality.__init__", "src/sigmaepsilon/math/function/relation.py:InEquality.__init__"]}
{"id": "C84", "title": "A function takes its variables in the given order", "statement": "A function made from a string or an expression has the variables it was given, in this order (or those of the expression, if none are given), strings and symbols may not be mixed, and calling it returns the value of the expression where the variables take the given values in this order; a wrong number of values is a ValueError. Variables are matched by name, so symbols with assumptions bind the names of a string. A function made from a callable returns what the callable returns.", "quantifier": "all strings, expressions and callables, all variable lists, all points", "why_tests_cant": "Expressions, variable lists and points are infinite families; the order depends on the iteration order of a set when no variables are given.", "anchors": ["src/sigmaepsilon/math/function/function.py:Function.__init__", "src/sigmaepsilon/math/function/function.py:Function.update", "src/sigmaepsilon/math/function/symutils.py:decode", "src/sigmaepsilon/math/function/symutils.py:symbolize", "src/sigmaepsilon/math/function/metafunction.py:MetaFunction.__call__"]}
{"id": "C85", "title": "is_linear recognises linear functions", "statement": "If is_linear is True, the function is an affine function of its variables; if the degree in some variable exceeds one, it is not True.", "quantifier": "all functions, symbolic or given as callables, all correct degree computations", "why_tests_cant": "Tests look at a few polynomials; mixed terms are the interesting case.", "anchors": ["src/sigmaepsilon/math/function/function.py:Function.is_linear"]}
{"id": "C86", "title": "generate_symbols yields one symbol per index", "statement": "generate_symbols(template, indices) returns a list with one symbol per index, in order, named by the template and with the given assumptions.", "quantifier": "all templates that give names without separators, all index lists, all assumptions", "why_tests_cant": "The list may have any length.", "anchors": ["src/sigmaepsilon/math/function/symutils.py:generate_symbols"]}
{"id": "C87", "title": "A collection is transformed member by member", "statement": "Transforming a vector, a tensor or an array of vectors or tensors with one matrix, or with one matrix for each index of the first axis, transforms every member by the rule for tensors of its rank with its matrix; the shape is unchanged, and the result does not depend on the schedule of the parallel loops.", "quantifier": "all classes of vectors and tensors, all ranks and dimensions, all numbers and lengths of leading axes, all matrices, all schedules", "why_tests_cant": "Shapes, dimensions and schedules are infinite families; each branch of the dispatch handles other shapes.", "anchors": ["src/sigmaepsilon/math/linalg/tr.py:_tr_tensors2", "src/sigmaepsilon/math/linalg/tr.py:_tr_tensors4x3", "src/sigmaepsilon/math/linalg/utils.py:show_vector", "src/sigmaepsilon/math/linalg/tensor.py:Tensor.transform_components", "src/sigmaepsilon/math/linalg/tensor.py:Tensor2.transform_components", "src/sigmaepsilon/math/linalg/tensor.py:Tensor4.transform_components"]}
{"id": "C88", "title": "Vectors and tensors are created exactly from arrays of the documented shapes", "statement": "The constructors accept exactly the documented shapes (with the flag bulk for collections), rank gives the rank of the members, is_bulk tells whether the object is a collection, and the default frame is the standard frame of the dimension of the members.", "quantifier": "all classes, all shapes, all values of bulk and rank, with and without a frame, arrays and nested lists", "why_tests_cant": "Tests try a few shapes.", "anchors": ["src/sigmaepsilon/math/linalg/meta.py:TensorLike.__init__", "src/sigmaepsilon/math/linalg/meta.py:TensorLike.rank", "src/sigmaepsilon/math/linalg/meta.py:TensorLike.is_bulk", "src/sigmaepsilon/math/linalg/tensor.py:Tensor2x3.__init__", "src/sigmaepsilon/math/linalg/tensor.py:Tensor4x3.__init__", "src/sigmaepsilon/math/linalg/vector.py:Vector"]}
{"id": "C89", "title": "Operations on vectors, tensors and collections return objects of the same kind", "statement": "Multiplication and division by a number, negation, copies and transposition of a vector, a tensor or a collection act on every component (transposition: reverse the axes of every member) and return an object of the same class, shape, frame and rank, which is a collection if and only if the original is.", "quantifier": "all objects made by the constructors, all numbers", "why_tests_cant": "All classes, shapes and flags; tests use single tensors.", "anchors": ["src/sigmaepsilon/math/linalg/abstract.py:AbstractTensor.__mul__", "src/sigmaepsilon/math/linalg/abstract.py:AbstractTensor.__truediv__", "src/sigmaepsilon/math/linalg/abstract.py:AbstractTensor.__neg__", "src/sigmaepsilon/math/linalg/meta.py:TensorLike.__copy__", "src/sigmaepsilon/math/linalg/meta.py:TensorLike.transpose"]}
{"id": "C90", "title": "NumPy functions on tensors respect the frames", "statement": "np.allclose and np.isclose of two tensors compare the components in the ambient frame, whatever frames the tensors are stored in, so that the answer is the same for all representations of a tensor; the negative of a tensor is the tensor with the opposite components in the same frame; a tensor can be multiplied by a number from either side; any other function or universal function raises an exception rather than returning a wrong array.", "quantifier": "all tensors of all ranks and dimensions, all frames, all tolerances, all universal functions", "why_tests_cant": "Tensors, frames and tolerances are infinite families; the dispatch has to be right for every universal function.", "anchors": ["src/sigmaepsilon/math/linalg/abstract.py:implements", "src/sigmaepsilon/math/linalg/abstract.py:AbstractTensor.__array_function__", "src/sigmaepsilon/math/linalg/abstract.py:AbstractTensor.__array_ufunc__", "src/sigmaepsilon/math/linalg/abstract.py:allclose", "src/sigmaepsilon/math/linalg/abstract.py:isclose"]}
{"id": "C91", "title": "A histogram reports the middle of every bin", "statement": "histogram returns the counts of np.histogram unchanged together with the edges, or with one position per bin which is the middle of its two edges and so lies in the bin; the result does not depend on the schedule of the parallel loop.", "quantifier": "all data, all bins given as numbers or arrays of floats or integers, all schedules", "why_tests_cant": "All arrays of edges, both dtypes, all schedules.", "anchors": ["src/sigmaepsilon/math/hist.py:histogram", "src/sigmaepsilon/math/hist.py:bin_centers"]}
{"id": "C92", "title": "The squeeze decorator removes unit axes and changes nothing else", "statement": "A decorated function returns what the original returns, with the axes of length one removed from an array, from the arrays in a tuple and from the arrays that are values of a dictionary; the elements, the kind of the container, its keys and their order and all other objects do not change; with squeeze=False, or with default=False and no argument, the result is that of the original; exceptions pass through.", "quantifier": "all functions, all arguments, all returned values, all shapes, both defaults", "why_tests_cant": "The decorator must work for every function and every shape.", "anchors": ["src/sigmaepsilon/math/decorate.py:squeeze", "src/sigmaepsilon/math/decorate.py:_squeeze_if_array"]}
{"id": "C93", "title": "Members of a population are equal by genotype and ordered by fitness", "statement": "Two members are equal if and only if their genotypes are equal, and then their hashes are equal; <, <=, > and >= compare the fitness; comparison with another object is False for == and raises TypeError for the order relations.", "quantifier": "all members with finite fitness, all other objects, all hash functions of strings", "why_tests_cant": "All genotypes and fitness values; hash consistency is a statement about all pairs.", "anchors": ["src/sigmaepsilon/math/optimize/ga.py:Genom.__eq__", "src/sigmaepsilon/math/optimize/ga.py:Genom.__hash__", "src/sigmaepsilon/math/optimize/ga.py:Genom.__lt__", "src/sigmaepsilon/math/optimize/ga.py:Genom.__le__", "src/sigmaepsilon/math/optimize/ga.py:Genom.__gt__", "src/sigmaepsilon/math/optimize/ga.py:Genom.__ge__"]}
{"id": "C94", "title": "Tests for symmetry and definiteness decide them", "statement": "isposdef and is_pos_def are true exactly for positive definite matrices (isposdef relative to its tolerance), ispossemidef and is_pos_semidef exactly for positive semidefinite ones; issymmetric is true for symmetric matrices and bounds the asymmetry of every pair of entries; the random definite and semidefinite matrices are symmetric and definite or semidefinite whatever numbers are drawn.", "quantifier": "all real square matrices of all sizes, all tolerances, all random draws", "why_tests_cant": "Definiteness quantifies over all vectors, and the claim over all matrices and draws.", "anchors": ["src/sigmaepsilon/math/logical.py:issymmetric", "src/sigmaepsilon/math/logical.py:isposdef", "src/sigmaepsilon/math/logical.py:ispossemidef", "src/sigmaepsilon/math/linalg/logical.py:is_pos_def", "src/sigmaepsilon/math/linalg/logical.py:is_pos_semidef", "src/sigmaepsilon/math/linalg/utils.py:random_pos_semidef_matrix", "src/sigmaepsilon/math/linalg/utils.py:random_posdef_matrix"]}
{"id": "C95", "title": "chop zeroes exactly the small components", "statement": "chop sets exactly the components whose absolute value is below the tolerance to zero, changes no other component and no component by more than the tolerance, keeps the shape, and changes nothing when repeated with the same or a smaller tolerance.", "quantifier": "all arrays of all shapes, all tolerances", "why_tests_cant": "All arrays and tolerances.", "anchors": ["src/sigmaepsilon/math/linalg/meta.py:ArrayWrapper.chop"]}
{"id": "C96", "title": "The symbolic inverse is the inverse", "statement": "inv_sym_3x3 of a 3x3 matrix of expressions is its inverse wherever the determinant is not zero; with as_adj_det the determinant and the adjugate are returned, whose product with the matrix is the determinant times the unit matrix; a matrix of another shape is refused.", "quantifier": "all 3x3 matrices of expressions, all values of the symbols", "why_tests_cant": "An identity of expressions for all entries.", "anchors": ["src/sigmaepsilon/math/linalg/utils.py:inv_sym_3x3"]}
{"id": "C97", "title": "Array wrappers own their memory", "statement": "A wrapped array is a copy of what it was made from: later changes of the source do not show in the wrapper nor the reverse, and different wrappers never share memory, whatever a program does. Universal functions work on the wrapped values and return new wrappers without changing their inputs; with out=... exactly the given output changes; operands of other types raise TypeError; writing through a wrapper or through its to_numpy() array is seen by both; an operator with assignment (a += x) updates the object itself.", "quantifier": "all programs of constructions, element assignments, chops, universal functions with and without outputs; all arrays, all universal functions", "why_tests_cant": "Aliasing has to be excluded for every program, not for a few sequences of calls.", "anchors": ["src/sigmaepsilon/math/linalg/meta.py:ArrayWrapper"]}
{"id": "C98", "title": "Decoded phenotypes respect their ranges in double precision", "statement": "In IEEE double precision, with rounding after every operation, every decoded value is a finite number in the given range, the codes 0...0 and 1...1 give exactly the ends of the range, larger codes have larger values, and each value is the exact one up to rounding.", "quantifier": "all ranges with ends up to 2^1000 in magnitude, all lengths from 1 to 53, all genotypes", "why_tests_cant": "2^length codes for infinitely many ranges; the failures are isolated roundings.", "anchors": ["src/sigmaepsilon/math/optimize/bga.py:BinaryGeneticAlgorithm.decode"]}
{"id": "C99", "title": "linspace1d and bin_centers keep their points between the ends in double precision", "statement": "In IEEE double precision linspace1d starts exactly at the first and ends exactly at the second point, is monotone and every point is the exact one up to rounding; a centre computed by bin_centers is a finite number strictly between its edges and the middle up to rounding.", "quantifier": "all ends and edges up to 2^1000 in magnitude, all numbers of points from 2 to 2^53", "why_tests_cant": "All pairs of doubles and all numbers of points; the failures are isolated roundings.", "anchors": ["src/sigmaepsilon/math/linalg/utils.py:linspace1d", "src/sigmaepsilon/math/hist.py:bin_centers"]}
