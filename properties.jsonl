{"id": "C01", "title": "broadcast_shapes is the least common named shape", "statement": "na.broadcast_shapes(*shapes) succeeds exactly when, for every axis name, all the sizes different from 1 given to that name are equal. On success the result contains exactly the axis names that occur in some argument, gives each the common non-1 size (or 1), and lists the names in first-seen order. As a consequence the result is independent of the order and grouping of the arguments up to the order of the axes.", "quantifier": "for every finite list of shapes (any axis names, any sizes including 0 and 1)", "why_tests_cant": "tests compare a handful of pairs of shapes; associativity, exact failure condition and first-seen order over an arbitrary number of arguments cannot be enumerated", "anchors": ["named_arrays/_core.py:broadcast_shapes", "named_arrays/_core.py:shape_broadcasted"]}
{"id": "C02", "title": "Elementwise operations pair elements by axis name", "statement": "For an elementwise ufunc applied to scalar arrays and plain numbers, the element of the result at a named index is the function applied to the elements of the operands at that same named index, where an operand ignores axis names it does not have and is read at position 0 along axes of size 1. The shape of the result is the broadcasted shape of the operands, and the call fails exactly when the shapes cannot be broadcasted.", "quantifier": "for every n-ary function, every list of operands with any axes in any order, and every named index", "why_tests_cant": "the claim ranges over all axis orders/permutations, all shapes and all functions; tests use a few fixed small arrays and recompute with the same alignment helper", "anchors": ["named_arrays/_scalars/scalars.py:AbstractScalarArray.__array_ufunc__", "named_arrays/_scalars/scalars.py:AbstractScalarArray.ndarray_aligned"]}
{"id": "C03", "title": "Storage order of axes is unobservable in elementwise operations", "statement": "Reordering the axes of any operand of an elementwise operation (np.transpose) does not change the value of the result at any named index, nor the set of axis names and sizes of the result, nor whether the call fails.", "quantifier": "for every operand list, every permutation of the axes of each operand", "why_tests_cant": "there are n! orders for each operand; tests exercise one or two", "anchors": ["named_arrays/_scalars/scalars.py:AbstractScalarArray.__array_ufunc__", "named_arrays/_scalars/scalar_array_functions.py:transpose"]}
{"id": "C04", "title": "Axis names stay unique and match the number of dimensions", "statement": "Every ScalarArray that can be obtained from constructors by any finite sequence of library operations (indexing, reductions, transposes, renames, stacking, concatenation, combining axes, broadcasting, elementwise operations) has pairwise distinct axis names and exactly one name per dimension of the underlying array; operations which would violate that raise instead.", "quantifier": "for every finite history of operations on every pool of arrays", "why_tests_cant": "an invariant over unbounded operation histories", "anchors": ["named_arrays/_scalars/scalars.py:ScalarArray.__post_init__", "named_arrays/_scalars/scalars.py:ScalarArray.shape"]}
{"id": "C05", "title": "Integer, slice and advanced indexing by name", "statement": "a[item] with a dict item: an integer removes the axis and fixes it, a slice keeps the axis and selects start/stop/step positions with Python semantics (negative values count from the end), an integer-valued array replaces the axis by the (broadcasted) axes of the index arrays; the element of the result at a named index is the element of a at the correspondingly selected index. Out-of-range integers raise IndexError, and no other element is ever returned.", "quantifier": "for every array, every item dictionary in any key order, every mix of integers, slices and index arrays", "why_tests_cant": "mix of key orders, axis orders, negative indices and broadcasted index arrays is unbounded; numpy's placement rules for mixed advanced/basic indices make particular cases unrepresentative", "anchors": ["named_arrays/_scalars/scalars.py:AbstractScalarArray._getitem"]}
{"id": "C06", "title": "Indexing ignores absent axes", "statement": "Keys of the item dictionary that name axes not present in the array do not affect the result of a[item]; an item with no relevant key returns the array itself. Consequently na.getitem applied to a nested structure of heterogeneous arrays never fails because of a missing axis.", "quantifier": "for every array and every item dictionary", "why_tests_cant": "quantifies over all heterogeneous structures and items", "anchors": ["named_arrays/_scalars/scalars.py:AbstractScalarArray._getitem", "named_arrays/_core.py:getitem"]}
{"id": "C07", "title": "Boolean mask selects exactly the true positions", "statement": "a[mask], for a boolean mask whose axes are a subset of the axes of a, has the axes of a not in the mask, in order, followed by one flattened axis; along that axis it lists, in row-major order of the mask, exactly the elements of a at positions where the mask is true; the number of elements along it is the number of true elements of the mask.", "quantifier": "for every array and every mask with any subset of its axes in any order", "why_tests_cant": "all 2^n masks and all axis orders", "anchors": ["named_arrays/_scalars/scalars.py:AbstractScalarArray._getitem"]}
{"id": "C08", "title": "Assignment writes exactly the addressed elements", "statement": "a[item] = value, with integers, slices, index arrays or a boolean mask, gives every addressed element the element of value at the same named index (value broadcast by name), and leaves every other element, the shape and the axes unchanged; if the addressed positions are pairwise distinct then reading a[item] back gives value broadcast against the selection.", "quantifier": "for every array, item and value, including values whose axes are stored in a different order", "why_tests_cant": "a frame condition over all untouched elements and every item/value axis order", "anchors": ["named_arrays/_scalars/scalars.py:ScalarArray.__setitem__"]}
{"id": "C09", "title": "broadcast_to repeats along new names only", "statement": "na.broadcast_to(a, shape) has exactly the given shape and its element at a named index is the element of a at that index (ignoring new axes, position 0 along size-1 axes). It fails exactly when a has an axis that is not in shape or whose size is neither 1 nor the requested size. With append=True the new axes come after the axes of a.", "quantifier": "for every array and every target shape", "why_tests_cant": "all shapes and orders", "anchors": ["named_arrays/_named_array_functions.py:broadcast_to", "named_arrays/_scalars/scalar_named_array_functions.py:broadcast_to", "named_arrays/_scalars/scalars.py:AbstractScalarArray.ndarray_aligned"]}
{"id": "C10", "title": "debroadcast is a right inverse of broadcasting", "statement": "broadcasting na.debroadcast(a) back to the shape of a gives a; every axis removed is one along which a is constant, and every remaining axis (of the considered ones) is one along which a is not constant.", "quantifier": "for every nonempty array and subset of axes", "why_tests_cant": "constancy along every subset of axes; interaction of several constant axes", "anchors": ["named_arrays/_named_array_functions.py:debroadcast", "named_arrays/_named_array_functions.py:_debroadcast", "named_arrays/_scalars/scalar_named_array_functions.py:debroadcast"]}
{"id": "C11", "title": "Axis reordering preserves content; requested position is honoured", "statement": "np.transpose(a, axes), a.add_axes(axes) and a.change_axis_index(axis, index) never change the element at any named index; transpose and add_axes list the axes in the requested order, and change_axis_index puts the axis at the requested position.", "quantifier": "for every array, permutation, new names and index", "why_tests_cant": "n! orders; position arithmetic with negative indices", "anchors": ["named_arrays/_scalars/scalars.py:AbstractScalarArray.add_axes", "named_arrays/_scalars/scalars.py:AbstractScalarArray.change_axis_index", "named_arrays/_scalars/scalar_array_functions.py:transpose"]}
{"id": "C12", "title": "combine_axes is a bijection on elements", "statement": "a.combine_axes(axes, axis_new) replaces the given axes by one axis whose size is the product of their sizes; position k along it is the row-major position, in the order the axes are given, of the original indices, and all other axes keep their order and content.", "quantifier": "for every array, every sub-list of its axes in any order and every new name", "why_tests_cant": "row-major arithmetic over arbitrarily many axes in arbitrary order", "anchors": ["named_arrays/_scalars/scalars.py:AbstractScalarArray.combine_axes", "named_arrays/_core.py:flatten_axes"]}
{"id": "C13", "title": "np.moveaxis renames axes", "statement": "np.moveaxis(a, source, destination) returns the same elements with each name in source replaced by the corresponding name in destination, all other names unchanged, for any simultaneous renaming that keeps names distinct (including exchanging two names).", "quantifier": "for every array and every renaming with distinct results", "why_tests_cant": "renamings whose source and destination overlap are combinatorially many", "anchors": ["named_arrays/_scalars/scalar_array_functions.py:moveaxis"]}
{"id": "C14", "title": "Reductions over named axes", "statement": "A reduction (sum, product, min, max, any, all) over axes S with an optional mask removes exactly the names in S (or keeps them with size 1 when keepdims) and its element at a named index is the fold of the elements of a (selected by the mask) over all indices of S; it does not depend on the storage order of the axes, and reducing in two steps over disjoint sets equals reducing over the union.", "quantifier": "for every commutative monoid, array, subset of axes and mask", "why_tests_cant": "all subsets and storage orders; two-step decomposition", "anchors": ["named_arrays/_scalars/scalar_array_functions.py:array_function_default"]}
{"id": "C15", "title": "argmin/argmax address the extreme element", "statement": "np.argmin(a, axis) returns an index dictionary such that a[np.argmin(a, axis)] equals np.min(a, axis) at every named index, and the position is the first one attaining the minimum (row-major over all axes when axis is None); the same for argmax.", "quantifier": "for every nonempty array over any total order and every axis", "why_tests_cant": "needs all arrays with ties in all positions", "anchors": ["named_arrays/_scalars/scalar_array_functions.py:array_function_arg_reduce", "named_arrays/_scalars/scalar_array_functions.py:unravel_index"]}
{"id": "C16", "title": "argsort and sort agree; sorting is a sorted permutation along the axis", "statement": "a[np.argsort(a, axis)] equals np.sort(a, axis); along the axis the result is ordered and a permutation of the original elements, and elements at different named positions along other axes never mix. With several axes the axes are combined first.", "quantifier": "for every array, every total preorder on elements, every axis (or tuple of axes)", "why_tests_cant": "all arrays with repeated values", "anchors": ["named_arrays/_scalars/scalar_array_functions.py:sort", "named_arrays/_scalars/scalar_array_functions.py:argsort"]}
{"id": "C17", "title": "concatenate and stack place the pieces in order", "statement": "na.concatenate(arrays, axis) contains, along axis, the elements of each array one after the other, broadcast by name along all the other axes; slicing the pieces back out returns the inputs. na.stack(arrays, axis) gives at position i along the new axis the i-th array broadcast to the common shape.", "quantifier": "for every list of arrays with any axis orders and broadcastable shapes", "why_tests_cant": "any number of pieces, any sizes (including 0), any axis orders", "anchors": ["named_arrays/_scalars/scalar_array_functions.py:concatenate", "named_arrays/_scalars/scalar_array_functions.py:stack"]}
{"id": "C18", "title": "take_along_axis gathers within each line", "statement": "np.take_along_axis(a, indices, axis) at a named index i equals a at i with its position along axis replaced by indices[i], with a and indices broadcast against each other along the other axes.", "quantifier": "for every array, index array and axis", "why_tests_cant": "all shapes/orders and index contents", "anchors": ["named_arrays/_scalars/scalar_array_functions.py:take_along_axis", "named_arrays/_named_array_functions.py:take_along_axis"]}
{"id": "C19", "title": "cumulative sums and differences are inverse", "statement": "np.cumsum(a, axis) holds at position k along axis the sum of the first k+1 elements; np.diff(np.cumulative_sum(a, axis, include_initial=True), axis) equals a; no other axis is mixed.", "quantifier": "for every array over any abelian group, and every axis", "why_tests_cant": "all sizes, axis orders and contents", "anchors": ["named_arrays/_scalars/scalar_array_functions.py:array_function_cumulative_reduce", "named_arrays/_scalars/scalar_array_functions.py:diff"]}
{"id": "C20", "title": "pack and unpack are inverse", "statement": "na.unpack(na.pack(x), x) rebuilds x: same nesting, same shapes and axis names, same leaf values, for any nested structure of dicts, lists, tuples, dataclasses, scalar and vector arrays and real numbers; unpacking raises exactly when the flat array does not have the number of numeric leaves of the prototype.", "quantifier": "for every nested structure and every flat array", "why_tests_cant": "unbounded nesting; positional bookkeeping through arbitrary structures", "anchors": ["named_arrays/_core.py:pack", "named_arrays/_core.py:unpack"]}
{"id": "C21", "title": "na.getitem and na.shape traverse structures faithfully", "statement": "na.getitem(x, item) returns a structure with the same nesting in which every array leaf is leaf[item] and every other leaf is unchanged; na.shape(x) is the broadcasted shape of all the array leaves, so if na.getitem fixes axis ax by an integer then ax is no longer in na.shape of the result.", "quantifier": "for every nested structure and item", "why_tests_cant": "unbounded nesting", "anchors": ["named_arrays/_core.py:getitem", "named_arrays/_named_array_functions.py:shape"]}
{"id": "C22", "title": "ndindex visits every index exactly once, in row-major order", "statement": "na.ndindex(shape, axis_ignored) yields each index dictionary within bounds over the non-ignored axes exactly once, in lexicographic order, and nothing else; the number of dictionaries is the product of the sizes.", "quantifier": "for every shape and set of ignored axes", "why_tests_cant": "all shapes; exhaustive enumeration claim", "anchors": ["named_arrays/_core.py:ndindex"]}
{"id": "C23", "title": "linspace and step agree, with and without endpoints and centers", "statement": "For na.linspace(start, stop, axis, num, endpoint, centers), consecutive samples differ by exactly na.step(start, stop, num, endpoint, centers); the first sample is start (start+step/2 for centers), the last is stop when endpoint and not centers; with centers all samples are midpoints of a partition of the interval, inside it.", "quantifier": "for every start, stop, num and flag combination, over exact arithmetic", "why_tests_cant": "tests look at particular numbers; the identity must hold for all num and all four flag combinations", "anchors": ["named_arrays/_named_array_functions.py:step", "named_arrays/_named_array_functions.py:linspace", "named_arrays/_core.py:AbstractLinearSpace"]}
{"id": "C24", "title": "Fractional indexing interpolates exactly", "statement": "a.interp_linear({axis: x}) returns a's element when x is an integer position in range, interpolates linearly between neighbouring positions, extrapolates with the first/last segment outside, and reproduces any affine function of the positions exactly; interpolation along several axes is multilinear and independent of the order of the axes.", "quantifier": "for every array with at least two positions on the axis, every fractional index", "why_tests_cant": "all rational positions, all arrays", "anchors": ["named_arrays/_core.py:AbstractArray._interp_linear_recursive", "named_arrays/_core.py:AbstractArray.interp_linear"]}
{"id": "C25", "title": "Vector operations act component by component", "statement": "Elementwise operations on vector arrays (with other vectors of the same type or scalars, nested vectors included) give, for each component, the scalar operation on that component; the shape is the broadcast of the component shapes; indexing a vector by a dict or a mask indexes every component consistently.", "quantifier": "for every vector type (set of components), nesting depth and operand shapes", "why_tests_cant": "arbitrary nesting and component shapes", "anchors": ["named_arrays/_vectors/vectors.py:AbstractVectorArray", "named_arrays/_vectors/cartesian/vectors_cartesian.py:AbstractCartesianVectorArray.__array_ufunc__"]}
{"id": "C26", "title": "cartesian_nd flattening round-trips", "statement": "For a vector v with components that may be nested vectors, type(v).from_cartesian_nd(v.cartesian_nd, like=v) equals v, and v.cartesian_nd has exactly one entry for each scalar leaf.", "quantifier": "for every nested vector whose component names contain no dot", "why_tests_cant": "arbitrary nesting and prefix-overlapping names", "anchors": ["named_arrays/_vectors/vectors.py:AbstractVectorArray.cartesian_nd", "named_arrays/_vectors/vectors.py:AbstractExplicitVectorArray.from_cartesian_nd"]}
{"id": "C27", "title": "Matrix inverse, determinant and product agree by component name", "statement": "For square matrix arrays of size 1, 2 and 3 with nonzero determinant, m.inverse @ m and m @ m.inverse are the identity, with rows and columns addressed by component name; the determinant is multiplicative; matrix-vector product is linear and (m1 @ m2) @ v == m1 @ (m2 @ v).", "quantifier": "for every matrix over any field, any naming of rows and columns", "why_tests_cant": "identity over all field elements; name orders of rows", "anchors": ["named_arrays/_matrices/matrices.py:AbstractMatrixArray.inverse", "named_arrays/_matrices/matrices.py:AbstractMatrixArray.__array_matmul__", "named_arrays/_matrices/cartesian/matrices_cartesian_2d.py", "named_arrays/_matrices/cartesian/matrices_cartesian_3d.py"]}
{"id": "C28", "title": "Composition of transformations is function composition", "statement": "For any two transformations (identity, translation, linear, affine, transformation list), (a @ b)(v) == a(b(v)) for every vector v; a.inverse(a(v)) == v when the linear parts are invertible; composition is associative; a TransformationList applies its elements in order (or in reverse order when extrinsic).", "quantifier": "for every pair/list of transformations of any mix of kinds and every vector", "why_tests_cant": "all mixes and lengths of lists, all vectors", "anchors": ["named_arrays/transformations.py"]}
{"id": "C29", "title": "Newton root finder: a returned value is a root to within tolerance", "statement": "na.optimize.root_newton either returns x with |f(x)| < max_abs_error at every element, or raises; it never returns an unconverged value, makes at most max_iterations iterations, and the callback sees each iterate.", "quantifier": "for every function, jacobian, guess, tolerance and iteration bound", "why_tests_cant": "an arbitrary user function; tests use a few polynomials", "anchors": ["named_arrays/_scalars/scalar_named_array_functions.py:optimize_root_newton", "named_arrays/optimize.py:root_newton"]}
{"id": "C30", "title": "Secant root finder: converged elements are frozen and results meet the tolerance", "statement": "na.optimize.root_secant returns only when every element has converged; each returned element satisfied the residual tolerance or the step-size criterion when it converged and is never modified afterwards; otherwise it raises.", "quantifier": "for every function, guess, tolerance, step bound and iteration bound, any number of elements converging at different iterations", "why_tests_cant": "interleavings of convergence of different elements", "anchors": ["named_arrays/_scalars/scalar_named_array_functions.py:optimize_root_secant", "named_arrays/optimize.py:root_secant"]}
{"id": "C31", "title": "rankdata returns the true ranks", "statement": "na.stats.rankdata(a, axis, method): 'min' is 1 + number of smaller elements, 'max' is the number of elements less than or equal, 'average' is their mean, 'dense' is 1 + number of distinct smaller values; lines along other axes are independent; masked elements do not affect the ranks of the others.", "quantifier": "for every array over any total order", "why_tests_cant": "every pattern of ties", "anchors": ["named_arrays/stats.py:rankdata"]}
{"id": "C32", "title": "Percentile of a probability mass function inverts its cumulative sum", "statement": "na.pdf.argpercentile(a, q) for nonnegative a with positive total and 0 <= q <= 100 returns the fractional index at which the piecewise-linear cumulative sum equals q percent of the total.", "quantifier": "for every nonnegative array and every q in [0, 100]", "why_tests_cant": "all arrays including runs of zeros, and both ends of the range of q", "anchors": ["named_arrays/pdf.py:argpercentile", "named_arrays/pdf.py:percentile"]}
{"id": "C33", "title": "Indexing a histogram-like function keeps bin edges with their bins", "statement": "For a FunctionArray whose inputs have one more element than the outputs along an axis (bin vertices), f[{axis: item}] for an integer or a slice keeps, for each selected output, its two adjacent inputs: the outputs are those Python indexing selects and the inputs are the vertices bounding them.", "quantifier": "for every size, every integer and every slice (negative values and steps included)", "why_tests_cant": "all integers and slices, positive and negative", "anchors": ["named_arrays/_functions/functions.py:AbstractFunctionArray._getitem"]}
{"id": "C34", "title": "Uncertain arrays propagate nominal values and samples independently", "statement": "For elementwise operations on uncertain scalars, the nominal part of the result is the operation on the nominal parts and the sample k of the result is the operation on the samples k; a result that depends only on certain operands has every sample equal to the nominal value.", "quantifier": "for every function, operands (certain or uncertain) and sample index", "why_tests_cant": "every mix of operands", "anchors": ["named_arrays/_scalars/uncertainties/uncertainties.py:AbstractUncertainScalarArray.__array_ufunc__"]}
{"id": "C35", "title": "Dispatch picks the most specific implementation", "statement": "Calling a library function with a mix of argument types calls the implementations of the argument types in an order compatible with subclassing, returns the first result which is not NotImplemented, calls none afterwards, and raises TypeError exactly when every implementation declines.", "quantifier": "for every list of argument types, any subclass relation, any pattern of declining", "why_tests_cant": "every pattern of types and refusals", "anchors": ["named_arrays/_named_array_functions.py:_named_array_function", "named_arrays/_named_array_functions.py:_is_subclass"]}
{"id": "C36", "title": "Seeded vector sampling uses an independent stream per component", "statement": "Sampling a random vector with a seed uses pairwise different seeds for different scalar components, so no two components are copies of one another; the same call with the same seed reproduces the same seeds.", "quantifier": "for every vector type with any nesting, any seed", "why_tests_cant": "arbitrary nesting of components", "anchors": ["named_arrays/_vectors/vector_named_array_functions.py:random"]}
{"id": "C37", "title": "Histograms have the requested number of bins and lose no sample", "statement": "With bins given as a dictionary, na.histogram/na.histogram2d/na.histogramdd produce the number of bins requested for each axis, the edges have one more element, and (without explicit limits) the counts over all bins sum to the number of samples.", "quantifier": "for every number of bins and samples", "why_tests_cant": "every bin count; tests compute the expected shape with the same expression", "anchors": ["named_arrays/_scalars/scalar_named_array_functions.py:histogram", "named_arrays/_scalars/scalar_named_array_functions.py:histogram2d", "named_arrays/_scalars/scalar_named_array_functions.py:histogramdd"]}
{"id": "C38", "title": "array_equal compares labelled contents", "statement": "np.array_equal(a, b) is True exactly when a and b have the same set of named axes with the same sizes and equal elements at every named index.", "quantifier": "for every pair of arrays, any axis names and orders", "why_tests_cant": "axis names and orders vary independently of the data", "anchors": ["named_arrays/_scalars/scalar_array_functions.py:array_equal"]}
{"id": "C39", "title": "mean_trimmed averages the central part", "statement": "na.mean_trimmed(a, q, axis) is the mean, at every named index of the other axes, of the sorted values along axis after dropping the int(q*n) smallest and largest, independent of the order of values along the axis.", "quantifier": "for every array, fraction 0 <= q < 1/2 and axis", "why_tests_cant": "every permutation of the values", "anchors": ["named_arrays/_named_array_functions.py:mean_trimmed"]}
{"id": "C40", "title": "cell_centers averages the surrounding vertices", "statement": "a.cell_centers(axis) reduces each given axis by one element and holds the mean of the 2^k surrounding vertices for k axes; on data affine in the positions it gives the value at the centre; the order in which the axes are given is irrelevant.", "quantifier": "for every array, any set of axes", "why_tests_cant": "any number of axes, any order", "anchors": ["named_arrays/_core.py:AbstractArray.cell_centers", "named_arrays/_core.py:_nlerp"]}
{"id": "C41", "title": "Polygonal cell areas are exact and additive", "statement": "The area of a 2D cell computed from its four vertices is the exact signed area (invariant under translation, multiplied by the determinant under linear maps, additive when a cell is split), so the cell areas of a grid sum to the area of the boundary polygon.", "quantifier": "for every grid of vertices over any field", "why_tests_cant": "every grid size and vertex position", "anchors": ["named_arrays/_vectors/cartesian/vectors_cartesian_2d.py:volume_cell"]}
{"id": "C42", "title": "Cross product is orthogonal to its factors", "statement": "For 3D vectors a.cross(b) is orthogonal to both, antisymmetric and satisfies Lagrange's identity |a x b|^2 = |a|^2 |b|^2 - (a.b)^2.", "quantifier": "for all vectors over any commutative ring", "why_tests_cant": "identity over all values", "anchors": ["named_arrays/_vectors/cartesian/vectors_cartesian_3d.py:cross"]}
{"id": "C43", "title": "unravel_index inverts row-major flattening", "statement": "np.unravel_index(i, shape) returns for each axis the index such that the row-major position of those indices is i, for every i below the number of elements; it raises for other i.", "quantifier": "for every shape and index array", "why_tests_cant": "every shape", "anchors": ["named_arrays/_scalars/scalar_array_functions.py:unravel_index"]}
{"id": "C44", "title": "where, clip and copyto are elementwise by name", "statement": "np.where(c, x, y), np.clip(a, lo, hi) and np.copyto(dst, src, where) act on the elements at each named index, broadcasting by name; copyto changes exactly the elements where the mask is true.", "quantifier": "for all arrays with any axis order", "why_tests_cant": "all shapes and orders", "anchors": ["named_arrays/_scalars/scalar_array_functions.py:where", "named_arrays/_scalars/scalar_array_functions.py:clip", "named_arrays/_scalars/scalar_array_functions.py:copyto"]}
{"id": "C45", "title": "Regridding is linear and transposing the weights transposes it", "statement": "Applying regridding weights is linear in the values, and applying the transposed weights is the adjoint operation: <R x, y> = <x, R^T y> for all x and y; transposing twice gives the original weights.", "quantifier": "for every weights list and all values, with any orthogonal axes", "why_tests_cant": "all weights lists and values", "anchors": ["named_arrays/regridding.py", "named_arrays/_scalars/scalar_named_array_functions.py:regridding_weights"]}
{"id": "C46", "title": "Assignment accepts the indices that indexing accepts", "statement": "Whenever a[item] succeeds, a[item] = value succeeds for every value that fits the selection by name, also when an index is a numpy integer; whenever a[item] raises because of the names of the index, the assignment raises as well.", "quantifier": "for every array, index dictionary (python integers, numpy integers, slices, index arrays) and value", "why_tests_cant": "all arrays and indices; the tests assign with python integers only", "anchors": ["named_arrays/_scalars/scalars.py:ScalarArray.__setitem__", "named_arrays/_scalars/scalars.py:AbstractScalarArray._getitem"]}
{"id": "C47", "title": "array_equiv compares labelled contents up to broadcasting", "statement": "np.array_equiv(a, b) is true exactly when a and b broadcast by name and are equal at every named index of the broadcasted shape, whatever the storage order of their axes; arrays whose shapes do not broadcast raise ValueError.", "quantifier": "for all arrays with any axis order", "why_tests_cant": "all shapes and orders", "anchors": ["named_arrays/_scalars/scalar_array_functions.py:array_equiv"]}
{"id": "C48", "title": "out and where of elementwise operations act by name", "statement": "With where, an elementwise operation computes the elements selected by the mask, which is broadcast by name and may not add axes; with out, the result is written to the element of out at the same named index whatever the storage order of its axes, unselected elements of out are kept, and the call raises exactly when an operand does not fit into out or the outs have different shapes.", "quantifier": "for every function with any number of outputs, all operands, masks and out arrays", "why_tests_cant": "all axis orders of inputs, mask and out", "anchors": ["named_arrays/_scalars/scalars.py:AbstractScalarArray.__array_ufunc__"]}
{"id": "C49", "title": "Reductions into an existing array", "statement": "A reduction with an `out` array gives `out` the labelled elements of the reduction whatever the storage order of `out`, and refuses an `out` array whose named shape is not that of the result.", "quantifier": "for every symmetric reduction, array, subset of axes, mask and output array", "why_tests_cant": "all storage orders of out relative to the result; wrongly named outputs of equal size", "anchors": ["named_arrays/_scalars/scalar_array_functions.py:array_function_default"]}
{"id": "C50", "title": "np.repeat repeats the elements in place", "statement": "np.repeat(a, repeats, axis) replaces every element along axis by as many consecutive copies as repeats gives for its position along axis (repeats broadcast by name to the axis), keeps the other axes unchanged, and refuses an axis the array does not have.", "quantifier": "for every array, every counts array and every axis", "why_tests_cant": "all shapes, counts including 0, and axis names", "anchors": ["named_arrays/_scalars/scalar_array_functions.py:repeat"]}
{"id": "C51", "title": "Cumulative functions with out write the result by name", "statement": "np.cumsum, np.cumprod and their variants with an out array give the same labelled result as without it, whatever the order in which out stores its axes.", "quantifier": "for every array, axis and out array with the axes of the result", "why_tests_cant": "all shapes and orders of the axes of out relative to the input", "anchors": ["named_arrays/_scalars/scalar_array_functions.py:array_function_cumulative_reduce"]}
{"id": "C52", "title": "concatenate and stack with out write by name and refuse wrong sizes", "statement": "na.concatenate and na.stack with an out array write, at each labelled index, the value they would return without out, whatever the storage order of out, and raise ValueError exactly when out has a further axis or another size.", "quantifier": "for every list of arrays and every out array", "why_tests_cant": "all shapes, storage orders and numbers of pieces", "anchors": ["named_arrays/_scalars/scalar_array_functions.py:concatenate", "named_arrays/_scalars/scalar_array_functions.py:stack"]}
{"id": "C53", "title": "partition acts on the lines of the named axis", "statement": "np.partition(a, kth, axis) keeps the shape and replaces every line along the named axis by a permutation of itself in which the elements before kth are at most, and those after kth at least, the element at kth; it raises ValueError exactly when the axis is absent or kth is out of range.", "quantifier": "for every array, every axis and every kth", "why_tests_cant": "all arrays, dimensions and axis orders", "anchors": ["named_arrays/_scalars/scalar_array_functions.py:partition"]}
{"id": "C54", "title": "Vectors with different components do not combine", "statement": "An elementwise operation between two vectors of the same type whose component names differ raises an exception, whatever the order of the operands; no component is dropped.", "quantifier": "for every pair of vectors of the same type with different sets of component names", "why_tests_cant": "arbitrary component names and operand orders", "anchors": ["named_arrays/_vectors/cartesian/vectors_cartesian.py:AbstractCartesianVectorArray.__array_ufunc__"]}
{"id": "C55", "title": "Indexing a vector agrees with its shape", "statement": "Indexing a vector by any index that is valid for its broadcast shape gives the elements that indexing the vector broadcast to its own shape gives.", "quantifier": "for every vector, nesting, component shapes and dictionary of indices", "why_tests_cant": "all combinations of component shapes (missing axes, size one) and indices", "anchors": ["named_arrays/_vectors/vectors.py:AbstractVectorArray._getitem"]}
{"id": "C56", "title": "Vector assignment writes every component or nothing", "statement": "v[item] = value, for an item that indexing v accepts and a value of the shape of the selection, assigns to every component its part of the value; when it raises, v is unchanged.", "quantifier": "for every vector, item and value", "why_tests_cant": "all nestings, component shapes and items; needs the state after the exception", "anchors": ["named_arrays/_vectors/vectors.py:AbstractExplicitVectorArray.__setitem__"]}
{"id": "C57", "title": "Cell volumes of a three-dimensional grid are signed volumes", "statement": "volume_cell of a three-dimensional vector array returns, for every cell along three axes, the signed volume enclosed by its triangulated surface, for every vector whose components broadcast together; so translations leave it unchanged, linear maps multiply it by their determinant, a parallelepiped has the determinant of its edges, and the volumes of the cells of a grid sum to the volume enclosed by its surface.", "quantifier": "for every field, three-dimensional vector array, choice of three axes and cell", "why_tests_cant": "all grid sizes, all real positions, all axis orders; laws relate different inputs", "anchors": ["named_arrays/_vectors/cartesian/vectors_cartesian_3d.py:AbstractCartesian3dVectorArray.volume_cell"]}
{"id": "C58", "title": "The scalar product of two vectors has the broadcast shape of their components", "statement": "v @ w, for two vectors with the same component names that broadcast together, is an array with exactly the axes and sizes of the broadcast of all their components, whatever the values.", "quantifier": "for every pair of vectors with the same components", "why_tests_cant": "the shape must not depend on the values, so all values matter, including zero and empty arrays", "anchors": ["named_arrays/_scalars/scalars.py:AbstractScalar.__array_matmul__", "named_arrays/_vectors/vectors.py:AbstractVectorArray.__array_matmul__"]}
{"id": "C59", "title": "Rotation matrices rotate, add angles and are orthogonal", "statement": "For every angle array, Cartesian2dRotationMatrixArray and the Cartesian3d X, Y and Z rotation matrices turn their plane by the angle in the right-handed sense and keep the other coordinate; they keep lengths; the product of two rotations about one axis is the rotation by the sum of the angles; the transpose is the inverse on both sides and equals .inverse; the determinant is one.", "quantifier": "all angle arrays (any axes, broadcastable together), all vectors of the matching type, all four rotation classes", "why_tests_cant": "Tests compare a few angles to numpy's own formula, entry by entry; a wrong sign in one class, a wrong plane or a wrong axis order shows only in the action on vectors and in products.", "anchors": ["named_arrays/_matrices/cartesian/matrices_cartesian_2d.py:151-163", "named_arrays/_matrices/cartesian/matrices_cartesian_3d.py:108-155", "named_arrays/transformations.py:455-520"]}
{"id": "C60", "title": "Indexing and reductions of uncertain arrays treat every sample alike", "statement": "Indexing an uncertain array reads, in the nominal value and in every sample, the position that the items select (each sample following its own sample of an uncertain index), integers and slices selecting the same position in all of them; a reduction reduces the nominal values and each sample over the same positions and keeps the axis of the samples.", "quantifier": "for every uncertain array, item dictionary, set of reduced axes, reduction function and sample", "why_tests_cant": "every combination of shapes, storage orders and items", "anchors": ["named_arrays/_scalars/uncertainties/uncertainties.py:AbstractUncertainScalarArray._getitem", "named_arrays/_scalars/uncertainties/uncertainties_array_functions.py:array_function_default", "named_arrays/_scalars/uncertainties/uncertainties_named_array_functions.py:broadcast_to"]}
{"id": "C61", "title": "Percentiles along named axes act by name", "statement": "np.percentile, np.quantile and their nan variants of a scalar array along any set of named axes give, for a q with at most two axes none of which is an axis of the array, an array whose axes are those of q followed by the remaining axes (with keepdims: all axes, the reduced ones of size one); each element is the percentile, for the q at its named position, of exactly the elements of the array above that position. The storage order of both arrays and the order in which the axes are named do not matter; shared or unknown axes are refused with ValueError; an output array with the named shape of the result, in any storage order, receives the same labelled elements.", "quantifier": "all nonempty scalar arrays or numbers a, all q (arrays or numbers), all axis arguments, keepdims, all symmetric percentile functions and ranges, all output arrays", "why_tests_cant": "Tests compare a few fixed shapes with numpy called on the same positional order; they do not cover every storage order of a, q and out, nor every combination of axes and keepdims.", "anchors": ["named_arrays/_scalars/scalar_array_functions.py:301-373", "named_arrays/_core.py:282-303"]}
{"id": "C62", "title": "Integrating a function array is the midpoint/trapezoid sum by name", "statement": "f.integrate(x) gives, at every position of the other axes, the sum over the intervals between consecutive inputs along x of the height of the interval (the output of the bin, the mean of the two samples, or the constant output) times its length; the axis disappears from both parts and the inputs are averaged. Constants and samples of linear functions are integrated exactly. It does not matter whether a constant output is stored once or repeated, or whether another axis has bins.", "quantifier": "for every function array with scalar parts, every axis of its inputs, every commutative ring with one half", "why_tests_cant": "tests cover a few shapes; the cases with another axis of bins or a single output are not among them", "anchors": ["named_arrays/_functions/functions.py:AbstractFunctionArray.integrate", "named_arrays/_scalars/scalars.py:AbstractScalar.volume_cell"]}
{"id": "C63", "title": "Reductions and cumulative functions of function arrays agree with their shape", "statement": "A reduction of a function array along axes of its shape reduces the outputs over all points along these axes, removes the axes from the shape (or leaves them with size one if keepdims is true) and averages the inputs over the middles of the bins; a cumulative function gives at every point the function of the outputs up to this point and keeps the inputs. The last cumulative sum is the sum, and a constant output counts once per point.", "quantifier": "for every function array with scalar parts, every set of axes of its shape, every symmetric reduction, every cumulative function", "why_tests_cant": "tests compare with the same calls on the parts, so that a wrong relation of inputs and outputs goes unnoticed", "anchors": ["named_arrays/_functions/function_array_functions.py:array_function_default", "named_arrays/_functions/function_array_functions.py:array_function_cumulative_reduce"]}
{"id": "C64", "title": "Renaming the axes of a function array renames both parts", "statement": "np.moveaxis of a function array along axes of its shape renames these axes in the inputs and in the outputs (in whichever part has them), leaves every element where it was, renames the shape, and refuses a renaming that would give two axes of the function the same name.", "quantifier": "for every function array with scalar parts and all lists of old and new names", "why_tests_cant": "tests rename an axis that both parts have", "anchors": ["named_arrays/_functions/function_array_functions.py:moveaxis"]}
{"id": "C65", "title": "Taking along an axis and joining function arrays keeps every output with its input", "statement": "np.take_along_axis of a function array gives at every position the input and the output of one and the same point, the one that the index names; np.concatenate lists the points of the first function, then those of the second and so on, with inputs and outputs in step; a part that is constant along the axis is repeated; an axis of bins, or an axis that is missing, is refused with ValueError.", "quantifier": "for all function arrays with scalar parts, all index arrays in range and all nonempty lists of function arrays whose other axes can be broadcast", "why_tests_cant": "tests compare the parts separately and for few shapes; the relation of inputs and outputs for parts without the axis is not covered", "anchors": ["named_arrays/_functions/function_array_functions.py:take_along_axis", "named_arrays/_functions/function_array_functions.py:array_function_stack_like"]}
{"id": "C66", "title": "Elementwise functions of function arrays act on equal inputs by name", "statement": "An elementwise function of function arrays, scalar arrays and numbers succeeds if and only if the inputs of all function arrays agree after broadcasting and the outputs can be broadcast; the outputs are calculated by name, the result has the broadcast shape of the arguments, and it does not depend on the order of the arguments for a commutative function.", "quantifier": "for every elementwise function and every list of arguments with at least one function array", "why_tests_cant": "tests use function arrays whose inputs are identical in shape and scalar arrays that fit", "anchors": ["named_arrays/_functions/functions.py:AbstractFunctionArray.__array_ufunc__"]}
{"id": "C67", "title": "Assignment to a function array fits reading from it", "statement": "Assigning a selection of a function array (or of a scalar array) to the same items leaves all elements unchanged; assigning a number writes it to exactly the outputs that the items address and leaves the inputs alone; an assignment that raises leaves the function array unchanged.", "quantifier": "for all function arrays with scalar parts, all items that can be read, all values", "why_tests_cant": "tests assign to samples with integers and slices only, and do not look at the array after an exception", "anchors": ["named_arrays/_functions/functions.py:FunctionArray.__setitem__", "named_arrays/_functions/functions.py:AbstractFunctionArray._getitem", "named_arrays/_scalars/scalars.py:ScalarArray.__setitem__"]}
{"id": "C68", "title": "Interpolation along a named axis", "statement": "na.interp returns an array with the broadcast shape of the points, samples and bounds without the axis of the samples, and its element at every position is np.interp of the line of samples that has the same position; samples of different length along the axis are refused.", "quantifier": "for all scalar arrays with any axes in any storage order, all bounds and periods, whatever the one-dimensional interpolation of numpy is", "why_tests_cant": "tests interpolate a few shapes where the samples have every axis of the points or none", "anchors": ["named_arrays/_scalars/scalar_named_array_functions.py:interp", "named_arrays/_named_array_functions.py:interp"]}
{"id": "C69", "title": "Function arrays in other orders and shapes", "statement": "Broadcasting, transposing, reshaping and repeating a function array keeps every output with its input: broadcasted parts have all axes (one more input along axes of bins), transposing changes no element and reverses the shape by default, reshaping keeps the row-major list of points, repeating repeats both parts alike; reshaping functions with bins, and repeating along bins, is refused.", "quantifier": "for all function arrays with scalar parts, all orders, shapes and numbers of repetitions", "why_tests_cant": "tests compare the parts with the same operation on the parts, for a few shapes", "anchors": ["named_arrays/_functions/function_array_functions.py:tranpose", "named_arrays/_functions/function_array_functions.py:reshape", "named_arrays/_functions/function_array_functions.py:repeat", "named_arrays/_functions/function_named_array_functions.py:broadcast_to", "named_arrays/_core.py:broadcasted"]}
{"id": "C70", "title": "Percentiles of function arrays", "statement": "A percentile of a function array has the percentiles of its outputs along those of the axes that they have, with the axes of q first, and stands at the same inputs as any other reduction along these axes.", "quantifier": "for all function arrays with scalar parts, all q, all axes, whatever the percentile of a list of numbers is", "why_tests_cant": "tests compare with the mean of the inputs, computed as the code does", "anchors": ["named_arrays/_functions/function_array_functions.py:array_function_percentile_like"]}
{"id": "C71", "title": "Copying to function arrays", "statement": "np.copyto to a function array copies inputs and outputs where the mask is true, leaves the others unchanged, matches axes by name, and leaves the destination unchanged if it raises.", "quantifier": "for all function arrays with scalar parts that hold ndarrays, all masks", "why_tests_cant": "tests copy between arrays with equal inputs stored in the same order", "anchors": ["named_arrays/_functions/function_array_functions.py:copyto", "named_arrays/_scalars/scalar_array_functions.py:copyto"]}
{"id": "C72", "title": "Random choices", "statement": "na.random.choice has the broadcast shape of shape_random and of the axes of the choices that are not flattened; each element is a choice of non-zero weight at the same position of these axes; without replacement no choice is used twice at one position; impossible draws are refused.", "quantifier": "for all choices, weights, axes and shapes, and all random generators that follow numpy's rules", "why_tests_cant": "the results are random; tests check the shape only", "anchors": ["named_arrays/_scalars/scalar_named_array_functions.py:random_choice", "named_arrays/random.py:choice"]}
{"id": "C73", "title": "Despiking", "statement": "na.despike gives each image along the two axes to the detector together with the mask, background, variance and kernel of the same labels and puts the cleaned pixels back at their labels; the result does not depend on the order in which axes are stored.", "quantifier": "for all arrays, masks, backgrounds, variances and kernels, whatever the detector is", "why_tests_cant": "tests check that the result has another sum for a few arrays", "anchors": ["named_arrays/_scalars/scalar_named_array_functions.py:despike", "named_arrays/_named_array_functions.py:despike"]}
{"id": "C74", "title": "Points in polygons", "statement": "na.geometry.point_in_polygon has the common shape of all arguments without the axis of the vertices, and each element is the test of the point with the vertices of the same labels, in order along the axis; storage order does not matter; points with that axis, polygons without it, and empty polygons are refused.", "quantifier": "for all points and vertices, whatever the test of one point is", "why_tests_cant": "tests use one circle and points inside and outside", "anchors": ["named_arrays/_scalars/scalar_named_array_functions.py:point_in_polygon", "named_arrays/geometry/_point_in_polygon.py:_point_in_polygon_quantity"]}
{"id": "C75", "title": "Evaluation of expressions", "statement": "na.numexpr.evaluate finds every variable in the local, then in the global scope; the result has the common shape of the variables and each element is the value of the expression for the elements of the variables with the same labels; other sizes and unknown variables are refused.", "quantifier": "for all expressions, scopes and scalar arrays", "why_tests_cant": "tests use a few expressions and arrays", "anchors": ["named_arrays/numexpr.py:evaluate", "named_arrays/numexpr.py:_getArguments", "named_arrays/_scalars/scalar_named_array_functions.py:evaluate"]}
{"id": "C76", "title": "Fourier transforms", "statement": "Fourier transforms act on the lines along the named axes, cropped or padded to the given lengths, with numpy's defaults, rename the axes at once, do not depend on storage order, and refuse missing axes, zero lengths and names that are taken.", "quantifier": "for all arrays, axes and lengths, whatever the one-dimensional transforms are", "why_tests_cant": "tests compute the expected result like the code, including the default lengths", "anchors": ["named_arrays/_scalars/scalar_array_functions.py:array_function_fft_like", "named_arrays/_scalars/scalar_array_functions.py:array_function_fftn_like"]}
{"id": "C77", "title": "Uniform samples and stratified random spaces", "statement": "A uniform random sample has the broadcast shape of its limits and shape_random, draws its own number at every labelled position, and lies between the limits at that position. A stratified random space has the shape of the corresponding linear space, exactly one sample in each stratum (sample i is within half a step of point i of the linear space), consecutive samples are in the order of the interval, and all samples are inside [start, stop].", "quantifier": "for all start/stop operands of any broadcastable shapes and orders (either sign of the step), all num, both flags, all seeds and all generators with values in [0,1)", "why_tests_cant": "tests look at a few seeds and shapes and cannot cover every generator, orientation and pair of flags", "anchors": ["named_arrays/_core.py:AbstractStratifiedRandomSpace", "named_arrays/_core.py:AbstractUniformRandomSample", "named_arrays/random.py:uniform", "named_arrays/_scalars/scalar_named_array_functions.py:random"]}
{"id": "C78", "title": "Convolutions and window filters", "statement": "na.convolve and the filters with a moving window act along the named axes and treat every other axis elementwise: the value at a labelled position depends only on the elements of the array, mask and kernel along these axes with all other coordinates (broadcast) held fixed, the result has the broadcast shape without the convolved axes of the kernel, the storage order does not matter, missing axes and conflicting shapes are refused. For uncertain scalars the nominal value and every sample are convolved separately, for every way to name the axes.", "quantifier": "for all arrays, kernels and masks of any shape and storage order, all lists of axes, every convolution or filter function along these axes, every sample", "why_tests_cant": "tests use one function, few shapes and single-letter axis names; they cannot cover all orders, broadcasts and functions", "anchors": ["named_arrays/_scalars/scalar_named_array_functions.py:convolve", "named_arrays/_scalars/scalar_named_array_functions.py:ndfilter", "named_arrays/_scalars/uncertainties/uncertainties_named_array_functions.py:convolve", "named_arrays/_named_array_functions.py:convolve", "named_arrays/ndfilters.py:mean_filter"]}
{"id": "C79", "title": "Polynomial fits", "statement": "A polynomial fit is the least-squares fit of its named terms: the names generated for a degree are all products of at most that many components, once each; the design matrix holds the value of each term and unknown components raise a ValueError; at every labelled position of the axes that are not fitted the residual over the selected points is orthogonal to every term, outputs that are a polynomial in these terms give back its coefficients, and no other polynomial in these terms has a smaller sum of squares; calling the function evaluates this polynomial.", "quantifier": "for all inputs (scalar or vector, any shapes, with or without center), outputs, masks, sets of fitted axes, lists of terms, and every field of values", "why_tests_cant": "tests fit a few polynomials of low degree with all axes fitted and compare with allclose; they cannot cover all shapes, masks, term lists or the optimality of the result", "anchors": ["named_arrays/_functions/functions.py:PolynomialFitFunctionArray.coefficients", "named_arrays/_functions/functions.py:PolynomialFitFunctionArray.design_matrix", "named_arrays/_functions/functions.py:PolynomialFitFunctionArray.from_degree", "named_arrays/_functions/functions.py:PolynomialFitFunctionArray._outer", "named_arrays/_matrices/matrices.py:AbstractMatrixArray.inverse"]}
{"id": "C80", "title": "Inverses of large matrices", "statement": "For a square matrix array with any number of rows, inverse returns the inverse: its rows are named by the columns and its columns by the rows of the matrix, and both matrix products of the matrix with its inverse are the identity at every labelled position where the matrix is invertible, whatever the names, axes and units.", "quantifier": "for all square matrices with four or more rows whose rows list the columns in one order, all axes of the entries, every field of values and every numpy inverse", "why_tests_cant": "the tests invert matrices with two rows only; the code has a separate branch for four or more rows that no test reaches, and the defect is invisible for symmetric matrices", "anchors": ["named_arrays/_matrices/matrices.py:AbstractMatrixArray.inverse", "named_arrays/_scalars/scalars.py:ScalarArray.matrix_inverse"]}
{"id": "C81", "title": "Jacobians are difference quotients by name", "statement": "na.jacobian(function, x, dx) returns, for scalar or vector x and scalar or vector values, the difference quotients: the entry for the component r of the value and the component c of the argument is (f(x moved by dx[c] along c)[r] - f(x)[r]) / dx[c], at every labelled position; rows are named by the value and columns by the argument, also when they are nested; a scalar step stands for all components; the Jacobian of an affine function is its matrix for every nonzero step.", "quantifier": "for all functions that act position by position, all kinds of nested vectors, all axes, all steps and every field of values", "why_tests_cant": "the tests only check that the result is nonnegative for a few functions with the default step", "anchors": ["named_arrays/_named_array_functions.py:jacobian", "named_arrays/_vectors/vector_named_array_functions.py:jacobian", "named_arrays/_scalars/scalar_named_array_functions.py:jacobian"]}
{"id": "C82", "title": "Reductions of vectors reduce every component by name", "statement": "A reduction of a vector (sum, product, minimum, all, ...) over any set of named axes, with an optional mask that is a scalar array or a vector, is the vector of the same type whose components are the reductions of the components broadcast along the reduced axes of the vector and the mask: a component that lacks a reduced axis counts as often as the axis is long; nested vectors are reduced to any depth; an axis that neither the vector nor the mask has, and shapes that conflict, raise ValueError; np.all(v) as a condition is true exactly when every component is true everywhere; all functions listed in DEFAULT_FUNCTIONS can be called this way.", "quantifier": "for all nested vectors with components of any axes, all masks, all sets of axes, keepdims or not, and every symmetric function of the elements", "why_tests_cant": "the tests compare with reductions of the components after broadcasting for a few shapes; nested vectors with masks of other nesting are not covered", "anchors": ["named_arrays/_vectors/vector_array_functions.py:array_function_default", "named_arrays/_vectors/vectors.py:__bool__"]}
{"id": "C83", "title": "Newton's method for vectors solves the linear equation of every step and stops below the tolerance", "statement": "root_newton of a vector guess calls the callback with numbered positions of the kind of the guess and the values there, starting from the guess; at every labelled index the next position solves J (x_k - x_{k+1}) = f(x_k); the flags are the comparisons of the value before; it returns the first position where every component is below its tolerance everywhere, and raises ValueError after max_iterations positions that are not; for an affine function one step is exact, also with the default jacobian, whatever its step.", "quantifier": "for all functions, jacobians, kinds of vectors (nested ones included), shapes, tolerances and numbers of iterations", "why_tests_cant": "the tests check that the function is small at the result for two functions of two components", "anchors": ["named_arrays/optimize.py:root_newton", "named_arrays/_vectors/vector_named_array_functions.py:optimize_root_newton"]}
{"id": "C84", "title": "Gradient descent takes the documented steps and stops where the gradient is below the tolerance", "statement": "minimum_gradient_descent calls the callback with numbered positions of the kind of the guess and the values there, starting from the guess; at every labelled index and for every component x_{k+1} = x_k - alpha z_{k+1} with z_{k+1} = beta z_k + grad f(x_k), z_0 = 0; the flags are the comparisons of the gradient before; it returns the first position where every component of the gradient is below the tolerance everywhere, and raises ValueError after max_iterations positions where it is not; on a quadratic bowl without momentum the distance to the minimum is (1 - alpha h)^k times the first one; the default gradient is made of difference quotients.", "quantifier": "for all functions, gradients, guesses, step sizes, momentum constants, shapes, tolerances and numbers of iterations", "why_tests_cant": "the tests compare the result with one minimum for a few settings", "anchors": ["named_arrays/optimize.py:minimum_gradient_descent", "named_arrays/_vectors/vector_named_array_functions.py:optimize_minimum_gradient_descent"]}
{"id": "C85", "title": "One-dimensional convolution is the sum over pairs of positions", "statement": "np.convolve of two scalar arrays along the same axis has at position k the sum of the products a_i v_j over all i + j = k, for mode full; the modes same and valid keep the central part and the part with complete overlap; the result lies along that axis, does not depend on the order of the arguments, and its generating polynomial is the product of theirs; more than one axis and empty arrays raise ValueError.", "quantifier": "for all lengths, elements of any field, modes, numbers and arrays without axes", "why_tests_cant": "the tests compare with numpy's function for arrays of one length", "anchors": ["named_arrays/_scalars/scalar_array_functions.py:convolve"]}
{"id": "C86", "title": "Comparisons of vectors compare all their components", "statement": "np.array_equal of two vectors is True exactly when they have the same type at every level and corresponding components have the same labels and elements; np.array_equiv does the same up to broadcasting; np.allclose is True exactly when all corresponding elements are close, a scalar being compared with every component, and raises TypeError for different types.", "quantifier": "for all vectors, nested to any depth, of scalar arrays of any shape and of plain numbers, in any order of components, and for every relation of closeness", "why_tests_cant": "the tests compare a vector with itself and a few modifications, always with the same components", "anchors": ["named_arrays/_vectors/vector_array_functions.py:array_equal", "named_arrays/_vectors/vector_array_functions.py:array_equiv", "named_arrays/_vectors/vector_array_functions.py:allclose"]}
{"id": "C87", "title": "Functions of vectors along named axes treat every component as if it had all the axes", "statement": "np.transpose, np.reshape, np.diff and np.repeat of a vector give, for every component, the result for the component broadcast to the shape of the vector; the cumulative functions and np.take_along_axis give the result for the component repeated along the one axis; np.moveaxis renames the axes of the vector; a missing axis is an error.", "quantifier": "for all vectors, nested to any depth, of scalar arrays of any shape and of plain numbers, all axes, sizes, scans, differences, repetition counts and indices in range", "why_tests_cant": "the tests use vectors of one or two axes whose components mostly share their axes, so missing and merged axes go unseen", "anchors": ["named_arrays/_vectors/vector_array_functions.py:transpose", "named_arrays/_vectors/vector_array_functions.py:moveaxis", "named_arrays/_vectors/vector_array_functions.py:reshape", "named_arrays/_vectors/vector_array_functions.py:array_function_cumulative_reduce", "named_arrays/_vectors/vector_array_functions.py:take_along_axis", "named_arrays/_vectors/vector_array_functions.py:repeat", "named_arrays/_vectors/vector_array_functions.py:diff"]}
{"id": "C88", "title": "Sorting a vector sorts every component along the axes of the vector, and its index dictionaries address the same elements", "statement": "np.sort of a vector along some of its axes gives, for every component with at least one of the axes, the sorted list of the elements along all of them, and leaves the other components; v[np.argsort(v)] is np.sort(v); without axis all axes are sorted; no axis or an unknown axis is refused; np.unravel_index gives one vector of positions for each axis of shape.", "quantifier": "for all vectors, nested to any depth, of scalar arrays of any shape and of plain numbers, all lists of axes, all sorting functions, all shapes and all indices in range", "why_tests_cant": "the tests use vectors whose components have the full size along the sorted axis and unravel indices over their own shape, so the failures go unseen", "anchors": ["named_arrays/_vectors/vector_array_functions.py:sort", "named_arrays/_vectors/vector_array_functions.py:argsort", "named_arrays/_vectors/vector_array_functions.py:unravel_index"]}
{"id": "C89", "title": "Joining vectors joins every component", "statement": "np.concatenate of vectors and scalars along an axis that all of them have gives, for every component, its arrays one behind the other, each as long as its vector is along the axis even when the component does not have the axis, and broadcast along the other axes; np.stack puts them at the positions of a new axis; a scalar stands for all components at every depth; exactly a missing (or for stack an existing) axis, shapes that do not broadcast and vectors of different types are refused.", "quantifier": "for all lists of vectors, nested to any depth, and scalars of any shape, and all axes", "why_tests_cant": "the tests join two vectors with at most two axes and one level of nesting; the places of the elements are compared with the joined components, for a handful of shapes", "anchors": ["named_arrays/_vectors/vector_array_functions.py:array_function_stack_like"]}
{"id": "C90", "title": "argmin and argmax of a vector address the extreme elements of its components", "statement": "np.argmin(v, axis) gives a dictionary of vectors of indices with which v[...] is, for every component at every depth, the first least element in row-major order along those of the axes that the component has; components without any of the axes are addressed by None and stay as they are; the result agrees with np.min(v, axis), which reduces the broadcast components; without axis all axes of the vector are searched; unknown axes, vectors without axes and searched components without elements are refused.", "quantifier": "for all vectors nested to any depth, all component shapes, all axes, all orders in which a set can be listed", "why_tests_cant": "the tests compare with the functions of the components for vectors of two components with at most two axes; the order of the set of axes depends on the hashes of strings and changes from run to run", "anchors": ["named_arrays/_vectors/vector_array_functions.py:array_function_arg_reduce"]}
{"id": "C91", "title": "where, clip and copyto of vectors act component by component", "statement": "np.where(c, x, y), np.clip(a, lo, hi) and np.copyto(dst, src, where=w) with vectors, or scalars standing for all components, give for every component at every depth what the function for scalars gives for that component: where chooses each element from x or y with the axes of all three, clip bounds each element and keeps the axes, copyto changes exactly the elements where the mask is true and otherwise leaves dst as it was; arguments that do not broadcast raise ValueError, vectors of different types TypeError.", "quantifier": "for all vectors nested to any depth, all mixtures of vectors, scalar arrays and plain numbers, all shapes, all masks and bounds", "why_tests_cant": "copyto of vectors is only tested without a mask and with a source that is a copy of the destination, so masks, plain components and components of other types are never met", "anchors": ["named_arrays/_vectors/vector_array_functions.py:where", "named_arrays/_vectors/vector_array_functions.py:clip", "named_arrays/_vectors/vector_array_functions.py:copyto"]}
{"id": "C92", "title": "nonzero gives the positions of the elements that are true", "statement": "np.nonzero(a) of a scalar array gives for each axis of a one array along the flattened axis whose k-th entries together are the k-th position, in row-major order, where the element is true; indexing any array by the result is the same as indexing it by the mask itself; np.nonzero of a vector gives the positions where every component is nonzero, the components being broadcast against each other, and raises ValueError when they do not broadcast.", "quantifier": "for all shapes, axis names and orders, all masks, all arrays indexed by them, all vectors with any number of components", "why_tests_cant": "the tests compare a[nonzero(m)] with a[m] for a few masks of the shape of the array and never use masks without axes or vectors of integers", "anchors": ["named_arrays/_scalars/scalar_array_functions.py:nonzero", "named_arrays/_vectors/vector_array_functions.py:nonzero"]}
{"id": "C93", "title": "percentiles of vectors", "statement": "np.percentile(a, q, axis) of a vector computes, for every component at every depth, the percentiles given by q (or by the component of q of the same name) of the elements along the named axes, a component that lacks a reduced axis being broadcast along it; the result has the axes of q and the axes that remain; an axis the vector does not have, components that do not broadcast and a q that shares an axis with the vector raise ValueError, a vector q of another type raises TypeError.", "quantifier": "for all vectors nested to any depth, all shapes without empty axes, all scalar and vector q, all axes, with and without keepdims, every percentile function that does not depend on the order", "why_tests_cant": "the tests compare each component with np.percentile of that component for one or two axes and use q of the same type or a scalar", "anchors": ["named_arrays/_vectors/vector_array_functions.py:array_function_percentile_like"]}
{"id": "C94", "title": "Fourier transforms of vectors", "statement": "np.fft.fft(v, axis=(x, y), n) of a vector and its variants transform, for every component at every depth, the lines along x (cropped or padded to the length) of the component broadcast along x to the size of x in the vector, and name the new axis y; np.fft.fftn does so for several axes, with the sizes in the vector as default lengths, and renames them at once; an axis the vector does not have, a length of zero, a new name some component uses, lengths for other axes and components that do not broadcast raise ValueError.", "quantifier": "for all vectors nested to any depth, all shapes, all axes and lengths, and every transform of lines", "why_tests_cant": "the tests compare with the transform of each component for a few shapes; the broadcast of components that lack the axis, at any depth, and the renaming that exchanges axes are not varied", "anchors": ["named_arrays/_vectors/vector_array_functions.py:array_function_fft_like", "named_arrays/_vectors/vector_array_functions.py:array_function_fftn_like"]}
{"id": "C95", "title": "nan_to_num replaces every element, with and without a copy", "statement": "np.nan_to_num(x) of a scalar, an uncertain scalar or a vector replaces every element of every component and keeps types, names and shapes; with copy=False x itself holds the replaced elements afterwards, or the call raises and x is unchanged.", "quantifier": "for all arrays nested to any depth, all shapes, every replacement of elements", "why_tests_cant": "the tests use a few arrays stored as ndarrays; numbers as components and mixtures with implicit components do not occur with copy=False", "anchors": ["named_arrays/_scalars/scalar_array_functions.py:nan_to_num", "named_arrays/_vectors/vector_array_functions.py:nan_to_num", "named_arrays/_scalars/uncertainties/uncertainties_array_functions.py:nan_to_num"]}
{"id": "C96", "title": "Reorganising an uncertain scalar acts the same way on the nominal values and on every sample", "statement": "np.transpose, np.moveaxis and np.reshape of an uncertain scalar give the transposed, renamed and reshaped array in the nominal world and in the world of every sample, with the same number of samples; they refuse exactly the arguments that the operation refuses for an array of the broadcast shape.", "quantifier": "for all uncertain scalars whose parts have any axes in any order, all new axes and shapes", "why_tests_cant": "the tests compare with the same operation on the two parts, mostly with samples stored last; they never rename an axis of one part to an axis of the other and never reshape without samples", "anchors": ["named_arrays/_scalars/uncertainties/uncertainties_array_functions.py:transpose", "named_arrays/_scalars/uncertainties/uncertainties_array_functions.py:moveaxis", "named_arrays/_scalars/uncertainties/uncertainties_array_functions.py:reshape"]}
{"id": "C97", "title": "copyto and clip of uncertain scalars act in every world", "statement": "np.copyto(dst, src, where=w) with an uncertain dst writes, in the nominal world and in the world of every sample, exactly the elements where the mask of that world is true, or raises and leaves dst unchanged; np.clip(a, lo, hi) clips in every world, the bounds and the array being broadcast.", "quantifier": "for all uncertain destinations, sources, masks and bounds of any shapes, every ordering of the elements", "why_tests_cant": "the tests never pass an uncertain mask to copyto and use a handful of shapes; a mask that is ignored cannot be seen when it is true everywhere", "anchors": ["named_arrays/_scalars/uncertainties/uncertainties_array_functions.py:copyto", "named_arrays/_scalars/uncertainties/uncertainties_array_functions.py:clip"]}
{"id": "C98", "title": "Operations of uncertain scalars along one axis act in every world", "statement": "np.cumsum, np.cumprod, np.partition, np.repeat and np.diff of an uncertain scalar act on every run of values along the axis, in the nominal world and in the world of every sample, also when one of the two parts is constant along the axis; other axes keep their sizes, and axes that the array lacks are refused with ValueError.", "quantifier": "for all uncertain scalars of any shapes, every scan, partition function, subtraction, repeat counts, order of differences and ends", "why_tests_cant": "the tests compare with the same operation on the two parts for a few shapes; the runs of a part that is constant along the axis are rarely looked at", "anchors": ["named_arrays/_scalars/uncertainties/uncertainties_array_functions.py:array_function_cumulative_reduce", "named_arrays/_scalars/uncertainties/uncertainties_array_functions.py:partition", "named_arrays/_scalars/uncertainties/uncertainties_array_functions.py:repeat", "named_arrays/_scalars/uncertainties/uncertainties_array_functions.py:diff"]}
{"id": "C99", "title": "array_equal, array_equiv and allclose compare uncertain scalars in every world", "statement": "np.array_equal(x, y) with an uncertain argument is true exactly when x and y have the same shape and the same elements in the nominal world and in the world of every sample; np.array_equiv and np.allclose do the same up to broadcasting, for equality and closeness; arguments that do not broadcast are refused.", "quantifier": "for all pairs of uncertain scalars, scalar arrays and numbers of any shapes, every comparison of elements", "why_tests_cant": "the tests compare arrays with themselves; two arrays that differ in a single sample or only in the way they are stored are not tried", "anchors": ["named_arrays/_scalars/uncertainties/uncertainties_array_functions.py:array_equal", "named_arrays/_scalars/uncertainties/uncertainties_array_functions.py:array_equiv", "named_arrays/_scalars/uncertainties/uncertainties_array_functions.py:allclose"]}
{"id": "C100", "title": "Stacking and concatenating uncertain scalars does so in every world", "statement": "np.stack and np.concatenate of uncertain scalars, scalar arrays and numbers give an uncertain scalar whose k-th slice (segment) equals the k-th argument in the nominal world and in the world of every sample, broadcast against the other arguments; they raise ValueError exactly when the list is empty, the shapes (including the number of samples) conflict, or the axis is present (stack) or absent in some argument (concatenate), or the axis is that of the samples.", "quantifier": "for all lists of arguments of any length and shapes, every axis, however the parts of each argument are stored", "why_tests_cant": "the tests join an array with itself or with a few fixed arrays; they do not try arguments whose parts store different axes or different numbers of samples", "anchors": ["named_arrays/_scalars/uncertainties/uncertainties_array_functions.py:array_function_stack_like"]}
{"id": "C101", "title": "Fourier transforms of uncertain scalars transform every world", "statement": "The one- and several-dimensional Fourier transforms of an uncertain scalar give an uncertain scalar whose nominal values are the transform of the nominal values and whose samples are the transforms of the samples, along the named axes at the size they have in the whole array, padded or cropped to the requested lengths, with the axes renamed; absent axes, zero lengths, lengths for other axes and new names that are in use or that of the samples raise ValueError.", "quantifier": "for all uncertain scalars of any shape however their parts are stored, all axes, names, lengths and all transforms of one line", "why_tests_cant": "the tests use arrays whose two parts have the transformed axis; parts that are constant along it, and clashes of the new name with an axis of only one part, are not tried", "anchors": ["named_arrays/_scalars/uncertainties/uncertainties_array_functions.py:array_function_fft_like", "named_arrays/_scalars/uncertainties/uncertainties_array_functions.py:array_function_fftn_like"]}
{"id": "C102", "title": "Taking elements of uncertain scalars along an axis does so in every world", "statement": "np.take_along_axis(x, i, axis), where x and i may be uncertain, gives an uncertain scalar whose element in the nominal world, and in the world of every sample, is the element of x at the position that i has in that world (negative positions count from the end), broadcast over the other axes of both; an absent axis or other axes that conflict raise ValueError, positions that do not exist raise IndexError.", "quantifier": "for all uncertain scalars, scalar arrays and numbers x and i of any shapes however they are stored, every axis", "why_tests_cant": "the tests take elements with a few argsort results; indices that depend on the sample and parts that are constant along the axis are not enumerated", "anchors": ["named_arrays/_scalars/uncertainties/uncertainties_array_functions.py:take_along_axis"]}
{"id": "C103", "title": "Sorting uncertain scalars", "statement": "np.argsort of an uncertain scalar along some axes gives an index whose positions along the combined axes sort the means of the samples, and np.sort rearranges the nominal values and every sample by that one permutation; sorting works for every uncertain scalar whose axes can be combined, and the values come out sorted in every world; axes that cannot be combined raise ValueError.", "quantifier": "for all uncertain scalars of any shapes however they are stored, all orders, all sequences of axes", "why_tests_cant": "the tests compare the result with the very index that the code uses; they never look whether the values are in order and never sort an array without samples", "anchors": ["named_arrays/_scalars/uncertainties/uncertainties_array_functions.py:sort", "named_arrays/_scalars/uncertainties/uncertainties_array_functions.py:argsort"]}
{"id": "C104", "title": "Percentiles of uncertain scalars", "statement": "np.percentile(x, q, axis) and its relatives, where x and q may be uncertain, give in the nominal world and in the world of every sample the percentile of the elements of x in that world along the axes, for the percentage that q has in that world, also for a part of x that does not store the axes; with keepdims the axes stay with size one; absent or repeated axes, axes that x and q share, more than two axes of q and percentages out of range raise ValueError.", "quantifier": "for all uncertain scalars, scalar arrays and numbers x and q of any shapes with elements however they are stored, all symmetric percentile functions, every axis argument and keepdims", "why_tests_cant": "the tests use a few shapes and never give uncertain percentages for an uncertain array", "anchors": ["named_arrays/_scalars/uncertainties/uncertainties_array_functions.py:array_function_percentile_like"]}
{"id": "C105", "title": "Positions of the extremes of uncertain scalars", "statement": "np.argmin(u, axis) and np.argmax(u, axis) of an uncertain scalar give an index with an entry for every axis, and one for the samples if there are any; in the nominal world and in the world of every sample it leads to the first of the least (greatest) elements of that world along the axes, and the entry for the samples leads to the sample itself; unknown or repeated axes, no axes, axes without elements and empty samples raise ValueError.", "quantifier": "for all uncertain scalars of any shapes however the two parts are stored, every axis argument, all orders and all functions that pick the first least element", "why_tests_cant": "the tests compare with the same functions applied to the parts, for a few shapes", "anchors": ["named_arrays/_scalars/uncertainties/uncertainties_array_functions.py:array_function_arg_reduce"]}
{"id": "C106", "title": "Elements of uncertain scalars that are not zero", "statement": "np.nonzero(u) of an uncertain scalar gives a dictionary with an entry for every axis, all along one new axis named after them, that leads to the elements that are zero neither in the nominal world nor in the world of any sample, each of them exactly once and in row-major order of the axes of the result; an uncertain scalar without axes gives an empty dictionary.", "quantifier": "for all uncertain scalars of any shapes however the two parts are stored, and all multiplications without zero divisors", "why_tests_cant": "the tests compare with the same expression evaluated on the parts, for a few shapes that all have samples", "anchors": ["named_arrays/_scalars/uncertainties/uncertainties_array_functions.py:nonzero"]}
{"id": "C107", "title": "Taking uncertain positions apart", "statement": "np.unravel_index(u, shape) of an uncertain scalar gives one uncertain scalar for each axis of the shape, with the parts stored like those of u; in the nominal world and in the world of every sample they are in bounds and their row-major position is the element of u in that world. If any position of any world is out of range, ValueError is raised. A shape without axes gives an empty dictionary.", "quantifier": "for all uncertain scalars of integers of any shapes however the two parts are stored, and all shapes", "why_tests_cant": "the tests use one or two shapes and positions in range", "anchors": ["named_arrays/_scalars/uncertainties/uncertainties_array_functions.py:unravel_index"]}
{"id": "C108", "title": "Evenly spaced uncertain scalars", "statement": "np.linspace(start, stop, axis, num, endpoint), where start and stop may be uncertain scalars, scalar arrays or numbers, gives an uncertain scalar whose two parts have the new axis; in the nominal world and in the world of every sample, element i is the start of that world plus i equal pieces of the interval between the ends of that world. Parts that do not broadcast, a negative number of elements, an axis that an end already has, and the axis of the samples raise ValueError.", "quantifier": "for all ends of any shapes however the parts are stored, every number of elements, with and without endpoint", "why_tests_cant": "the tests compare with the same function applied to the parts, for a few shapes, and never use an axis that exists", "anchors": ["named_arrays/_scalars/uncertainties/uncertainties_array_functions.py:array_function_sequence"]}
{"id": "C109", "title": "The functions of np.emath act element by element and in every world", "statement": "np.emath.sqrt, log, log2, logn, log10, power and their relatives of scalar arrays broadcast the arguments by name and give at every named index the function of the elements there; with uncertain arguments this holds in the nominal world and in the world of every sample. Arguments with conflicting sizes, in either part, and scalar arrays that have the axis of the samples among uncertain arguments raise ValueError.", "quantifier": "for all elementwise functions and any number of arguments that are uncertain scalars, scalar arrays or numbers of any shapes", "why_tests_cant": "the tests use a few shapes and at most two arguments", "anchors": ["named_arrays/_scalars/scalar_array_functions.py:array_function_emath", "named_arrays/_scalars/uncertainties/uncertainties_array_functions.py:array_function_emath"]}
