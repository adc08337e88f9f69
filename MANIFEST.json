{
 "claims": [
  {
   "property": "C01",
   "status": "proved",
   "theorems": [
    "C01_broadcast_shapes",
    "C01_order_irrelevant",
    "C01_grouping_irrelevant",
    "C01_grouping_failure"
   ],
   "note": ""
  },
  {
   "property": "C02",
   "status": "proved",
   "theorems": [
    "C02_ufunc_by_name"
   ],
   "note": "out= and where= arguments are under C48"
  },
  {
   "property": "C03",
   "status": "proved",
   "theorems": [
    "C03_storage_order"
   ],
   "note": ""
  },
  {
   "property": "C04",
   "status": "partial",
   "theorems": [
    "C04_histories_partial",
    "C04_step_partial",
    "C04_constructor",
    "C04_reduce_number",
    "C04_copyto",
    "C04_reduce_number_refuted",
    "C04_copyto_refuted",
    "C04_from_scalar_array_refuted"
   ],
   "note": "Proved for all programs over 33 calls except three: a reduction into an out that holds a Python number, copyto when numpy raises TypeError (for example integers from floats), and from_scalar_array of an ndarray with dimensions; these leave arrays whose names do not match their dimensions (refuted, with an exact characterisation of the first two)."
  },
  {
   "property": "C05",
   "status": "proved",
   "theorems": [
    "C05_getitem",
    "C05_getitem_success",
    "C05_getitem_out_of_range"
   ],
   "note": "exact characterisation of dict indexing: which element, which axes and sizes, when it succeeds, IndexError when out of range"
  },
  {
   "property": "C06",
   "status": "proved",
   "theorems": [
    "C06_absent_key",
    "C06_no_relevant_key"
   ],
   "note": "the consequence for nested structures is under C21"
  },
  {
   "property": "C07",
   "status": "proved",
   "theorems": [
    "C07_mask",
    "C07_true_positions",
    "C07_mask_success"
   ],
   "note": ""
  },
  {
   "property": "C08",
   "status": "proved",
   "theorems": [
    "C08_setitem",
    "C08_setitem_success",
    "C08_readback",
    "C08_setitem_mask",
    "C08_setitem_mask_success"
   ],
   "note": "integers are python integers; see C46 for numpy integers and for name clashes"
  },
  {
   "property": "C09",
   "status": "proved",
   "theorems": [
    "C09_broadcast_to",
    "C09_broadcast_to_append"
   ],
   "note": ""
  },
  {
   "property": "C10",
   "status": "proved",
   "theorems": [
    "C10_debroadcast",
    "C10_broadcast_back",
    "C10_recovers",
    "C10_smallest"
   ],
   "note": "exact for every comparison of elements; the inverse laws assume the comparison is equality (no NaN); empty axes are never removed, as documented"
  },
  {
   "property": "C100",
   "status": "proved",
   "theorems": [
    "C100_stack",
    "C100_concatenate"
   ],
   "note": "Proved in full for calls without out, dtype and casting."
  },
  {
   "property": "C101",
   "status": "proved",
   "theorems": [
    "C101_fft",
    "C101_fft_refused",
    "C101_fftn",
    "C101_fftn_refused"
   ],
   "note": "The transform of a single line is a parameter (numpy); norm only changes it."
  },
  {
   "property": "C102",
   "status": "proved",
   "theorems": [
    "C102_take_along_axis"
   ],
   "note": "Proved in full, including every refusal and which part is refused first."
  },
  {
   "property": "C103",
   "status": "partial",
   "theorems": [
    "C103_argsort_partial",
    "C103_sort_partial",
    "C103_certain_refuted",
    "C103_worlds_refuted"
   ],
   "note": "The common permutation that sorts the means is proved for explicit axes (axis=None only by example); false in part: the values of a world are in general not sorted, and arrays without samples are refused."
  },
  {
   "property": "C104",
   "status": "partial",
   "theorems": [
    "C104_percentile_partial",
    "C104_both_uncertain_refuted"
   ],
   "note": "Proved with all refusals, except that uncertain percentages of an uncertain array are always refused, which is refuted; arrays without elements are left out."
  },
  {
   "property": "C105",
   "status": "proved",
   "theorems": [
    "C105_axis",
    "C105_none"
   ],
   "note": "Proved with all refusals, for explicit axes and for all elements together."
  },
  {
   "property": "C106",
   "status": "partial",
   "theorems": [
    "C106_partial",
    "C106_refuses",
    "C106_certain_refuted"
   ],
   "note": "Proved for all uncertain scalars with an axis of samples; without one the call is always refused, which is proved and refutes the full claim. Multiplication is exact (no underflow)."
  },
  {
   "property": "C107",
   "status": "proved",
   "theorems": [
    "C107_unravel_index",
    "C107_no_axes"
   ],
   "note": "Success and refusals, for shapes with and without axes."
  },
  {
   "property": "C108",
   "status": "proved",
   "theorems": [
    "C108_linspace",
    "C108_refused",
    "C108_samples_refused"
   ],
   "note": "Success and all refusals, in exact arithmetic."
  },
  {
   "property": "C109",
   "status": "proved",
   "theorems": [
    "C109_scalars",
    "C109_uncertain",
    "C109_samples_refused"
   ],
   "note": "Success and all refusals; the function of one element is a parameter."
  },
  {
   "property": "C11",
   "status": "partial",
   "theorems": [
    "C11_transpose_success",
    "C11_transpose",
    "C11_transpose_default",
    "C11_add_axes",
    "C11_change_axis_index_partial",
    "C11_change_axis_index_absent",
    "C11_change_axis_index_refuted"
   ],
   "note": "transpose and add_axes are proved in full; change_axis_index puts the axis one position after the requested one (refuted with a witness), what it does do is proved as _partial"
  },
  {
   "property": "C12",
   "status": "partial",
   "theorems": [
    "C12_combine_axes_success",
    "C12_combine_axes_partial",
    "C12_combine_axes_source",
    "C12_empty_axis_refuted"
   ],
   "note": "full for every call that succeeds, with the exact condition for success; the code raises when a kept axis has size 0 (refuted with a witness)"
  },
  {
   "property": "C13",
   "status": "partial",
   "theorems": [
    "C13_moveaxis_partial",
    "C13_moveaxis_missing",
    "C13_exchange_refuted",
    "C13_storage_order_refuted"
   ],
   "note": "the code renames one name at a time: exchanging names is silently ignored and chains depend on the storage order (both refuted with witnesses); proved when no new name is the old name of a later pair"
  },
  {
   "property": "C14",
   "status": "proved",
   "theorems": [
    "C14_reduce",
    "C14_axis_order",
    "C14_storage_order",
    "C14_two_steps"
   ],
   "note": "Exact domain, shape and elements of a reduction with mask and keepdims; independence of axis and storage order for symmetric functions; two-step reduction for every commutative monoid. dtype is not modelled, initial is part of the reduced function."
  },
  {
   "property": "C15",
   "status": "proved",
   "theorems": [
    "C15_argmin",
    "C15_argmin_min",
    "C15_argmin_all",
    "C15_refused",
    "C15_refused_all"
   ],
   "note": "Any total order (argmax is the reversed order); the condition `sortable` holds for every single axis of a nonempty array and fails for several axes only if another axis already has the combined name; the search in one line is a parameter satisfying first_least."
  },
  {
   "property": "C16",
   "status": "partial",
   "theorems": [
    "C16_sort_partial",
    "C16_argsort_partial",
    "C16_agree_partial",
    "C16_agree_stable_partial",
    "C16_sort_all",
    "C16_argsort_all",
    "C16_sortable_all",
    "C16_refused",
    "C16_empty_axis_refuted",
    "C16_name_clash_refuted"
   ],
   "note": "Proved on the exact domain where the code succeeds. False in general: an array with an empty axis other than the sorted one is refused with ValueError, and so is an array with an axis named like the combination of the sorted axes."
  },
  {
   "property": "C17",
   "status": "proved",
   "theorems": [
    "C17_concatenate",
    "C17_pieces",
    "C17_stack"
   ],
   "note": "Exact domain, shape and elements of concatenate and stack (without out), for any number of pieces, sizes and axis orders; slicing with getitem gives each piece back, broadcast."
  },
  {
   "property": "C18",
   "status": "proved",
   "theorems": [
    "C18_take_along_axis"
   ],
   "note": "Exact domain (ValueError, IndexError), shape and elements for scalar arrays; when the result has no elements numpy may only warn about an index out of range, the model raises."
  },
  {
   "property": "C19",
   "status": "proved",
   "theorems": [
    "C19_cumulative",
    "C19_diff",
    "C19_diff_cumulative",
    "C19_cumulative_diff"
   ],
   "note": "Cumulative functions for an arbitrary scan; n-th differences with prepend and append; both inverse laws from the two cancellation laws only. Negative n is not modelled."
  },
  {
   "property": "C20",
   "status": "partial",
   "theorems": [
    "C20_pack",
    "C20_unpack",
    "C20_unique",
    "C20_success_partial",
    "C20_round_trip_partial",
    "C20_named_tuple_refuted"
   ],
   "note": "Packing, layout and uniqueness are proved for all structures; the round trip and the success condition hold without NamedTuple nodes. A NamedTuple is packed but unpack raises for every flat array (C20_named_tuple_refuted). Real numbers without units; conversion of a number to the prototype's type is an arbitrary function."
  },
  {
   "property": "C21",
   "status": "partial",
   "theorems": [
    "C21_getitem_partial",
    "C21_getitem_success_partial",
    "C21_shape",
    "C21_shape_unnamed",
    "C21_integer",
    "C21_dataclass_type_refuted"
   ],
   "note": "Proved for all structures of dicts, lists, tuples, dataclass instances, scalar and vector arrays, numbers, plain ndarrays and other objects. A leaf that is a dataclass type is not left unchanged: na.getitem raises (C21_dataclass_type_refuted)."
  },
  {
   "property": "C22",
   "status": "proved",
   "theorems": [
    "C22_ndindex"
   ],
   "note": ""
  },
  {
   "property": "C23",
   "status": "proved",
   "theorems": [
    "C23_edges",
    "C23_centers",
    "C23_step",
    "C23_ends",
    "C23_inside",
    "C23_refused"
   ],
   "note": "over exact rationals (Qc); a division by zero in na.step is ZeroDivisionError in the model also for arrays (numpy gives inf/nan); dtype and units are not modelled"
  },
  {
   "property": "C24",
   "status": "proved",
   "theorems": [
    "C24_segment",
    "C24_one_axis",
    "C24_multilinear",
    "C24_integer",
    "C24_affine",
    "C24_order",
    "C24_absent"
   ],
   "note": "over exact rationals; axes of size 2 or more, as the property says (size 1: Example C24_example_size_one shows IndexError for negative positions)"
  },
  {
   "property": "C25",
   "status": "proved",
   "theorems": [
    "C25_ufunc_leaves",
    "C25_ufunc_components",
    "C25_ufunc_all_leaves",
    "C25_ufunc_success",
    "C25_ufunc_types",
    "C25_shape",
    "C25_getitem",
    "C25_getitem_success",
    "C25_scalar_getitem",
    "C25_mask",
    "C25_mask_success",
    "C25_mask_vector"
   ],
   "note": "Vectors are trees of scalar arrays and numbers of any depth. Not modelled: out/where of ufuncs, functions with several outputs, masks whose components are nested vectors."
  },
  {
   "property": "C26",
   "status": "proved",
   "theorems": [
    "C26_entries",
    "C26_round_trip",
    "C26_from_cartesian_nd",
    "C26_from_cartesian_nd_success"
   ],
   "note": "An Example shows that the hypothesis on dots is needed."
  },
  {
   "property": "C27",
   "status": "partial",
   "theorems": [
    "C27_matmul",
    "C27_matvec",
    "C27_vecmat",
    "C27_dot",
    "C27_matmul_refuses",
    "C27_matvec_refuses",
    "C27_transpose",
    "C27_transpose_product",
    "C27_matvec_associative",
    "C27_matmul_associative",
    "C27_matvec_linear",
    "C27_inverse_partial",
    "C27_determinant2_partial",
    "C27_determinant3_partial",
    "C27_multiplicative2_partial",
    "C27_multiplicative3_partial",
    "C27_inverse_refuted",
    "C27_determinant_refuted"
   ],
   "note": "Products, transposes, associativity and linearity are proved by component name for every matrix. The inverse (1 to 3 rows) and the determinant (2D, 3D) are proved when every row lists the columns in the same order; with another order the code takes entries by position, and the claims are refuted with witnesses. Four or more rows (numpy inverse) are not modelled."
  },
  {
   "property": "C28",
   "status": "partial",
   "theorems": [
    "C28_call",
    "C28_compose",
    "C28_compose_none",
    "C28_associative",
    "C28_list",
    "C28_inverse_partial",
    "C28_inverse_product_partial",
    "C28_inverse_refuted"
   ],
   "note": "Calls, composition, associativity, lists in either order and the function compose are proved for every transformation whose matrices and vectors fit together, nested lists included. The inverse is proved on both sides for linear parts of at most three rows, all of one kind, with determinant different from zero. Rows that list the columns in different orders are refuted with a witness; four rows and more are not modelled."
  },
  {
   "property": "C29",
   "status": "proved",
   "theorems": [
    "C29_returns",
    "C29_elementwise",
    "C29_history",
    "C29_raises"
   ],
   "note": "For an arbitrary function and jacobian on scalar arrays (abstract arithmetic and order): the returned array is the last iterate and all elements of the function value there are below the tolerance; the iterates are linked by the Newton step by name; at most max_iterations steps, each seen by the callback; the exact reasons for raising. Units and vector arguments are not modelled."
  },
  {
   "property": "C30",
   "status": "partial",
   "theorems": [
    "C30_returns_partial",
    "C30_history_partial",
    "C30_raises_partial",
    "C30_refuted"
   ],
   "note": "Proved for functions with finite values: every returned element met the residual or step criterion and is frozen afterwards, the others follow the secant formula (with damping), and the reasons for raising. Refuted in general: the flags are initialised from 0*f0, so an element whose first value is NaN or infinite counts as converged and the guess is returned as a root."
  },
  {
   "property": "C31",
   "status": "partial",
   "theorems": [
    "C31_rankdata_partial",
    "C31_masked_partial",
    "C31_method",
    "C31_mask_conflict",
    "C31_empty_refuted",
    "C31_where_false_refuted"
   ],
   "note": "Proved for every total order, every method, any combination of axes and masks given as arrays: each number gets its rank among the (unmasked) numbers of its own line, masked elements get NaN. Missing: lines without elements raise (C31_empty_refuted), the Python value False as mask is ignored (C31_where_false_refuted), an empty other axis or an axis with the name of the combination raises as for argsort (C16). The result relies on numpy keeping the last of several values assigned to one element."
  },
  {
   "property": "C32",
   "status": "partial",
   "theorems": [
    "C32_argpercentile_partial",
    "C32_scalar",
    "C32_axes",
    "C32_hundred_refuted",
    "C32_broadcast_refuted"
   ],
   "note": "Proved for 0 <= q < 100, q a number or an array; elements need not be nonnegative. False at q = 100 (returns -1) and where q broadcasts an axis of size 1 of a (IndexError). Exact rationals; units removed; percentile (interpolation at the index) not modelled."
  },
  {
   "property": "C33",
   "status": "partial",
   "theorems": [
    "C33_getitem_partial",
    "C33_shape",
    "C33_last_refuted",
    "C33_negative_refuted",
    "C33_bounds_refuted",
    "C33_step_refuted",
    "C33_range_refuted"
   ],
   "note": "Proved for scalar inputs and outputs with any number of axes, for integers in range and slices with nonnegative bounds and no step along axes of bins, any integers and slices along other axes. False for negative integers and bounds, steps, and integers out of range (no exception)."
  },
  {
   "property": "C34",
   "status": "proved",
   "theorems": [
    "C34_ufunc",
    "C34_success",
    "C34_certain",
    "C34_where"
   ],
   "note": "Elementwise operations and where act separately on the nominal value and on every sample, certain operands being the same in every world; success is characterised exactly. out, where= of ufuncs, units and dtypes are not modelled."
  },
  {
   "property": "C35",
   "status": "partial",
   "theorems": [
    "C35_dispatch_partial",
    "C35_specific_refuted",
    "C35_order_refuted"
   ],
   "note": "Proved: every array argument takes part, the first that does not decline answers, none is asked afterwards, TypeError exactly when all decline, and for pairwise comparable classes the order is superclass first, stable. Refuted: the base class is preferred over its subclass, and with an unrelated class in between the order is compatible with subclassing in neither direction. Python's sorted is modelled as for fewer than 64 elements."
  },
  {
   "property": "C36",
   "status": "partial",
   "theorems": [
    "C36_seeds",
    "C36_flat_partial",
    "C36_scalar_shape",
    "C36_matrix_refuted",
    "C36_uncertain_refuted"
   ],
   "note": "Proved: the seed of every component at any nesting is the seed plus the sum of the positions, hence the seeds of the components of a vector of scalars differ. Refuted for matrices and nested vectors (a random matrix is symmetric) and for uncertain components (samples of x and nominal value of y share a seed)."
  },
  {
   "property": "C37",
   "status": "partial",
   "theorems": [
    "C37_histogramdd_partial",
    "C37_histogram_partial",
    "C37_histogram2d",
    "C37_number_of_samples",
    "C37_histogramdd_limits",
    "C37_histogram2d_limits",
    "C37_edges",
    "C37_bins_refuted",
    "C37_count_refuted"
   ],
   "note": "histogram2d satisfies the property: bins cells, bins+1 edges, and without limits the counts sum to the number of samples. histogram and histogramdd make as many edges as bins were requested, hence one cell less (refuted), and with one bin all samples are lost (refuted); with at least two edges the counts sum to the number of samples. Exact numbers, no NaN; units and density not modelled."
  },
  {
   "property": "C38",
   "status": "partial",
   "theorems": [
    "C38_array_equal_partial",
    "C38_different_axes_refuted",
    "C38_storage_order_refuted"
   ],
   "note": "the code compares the underlying ndarrays and ignores the axis names (refuted in both directions); proved for arrays with the same axes in the same order"
  },
  {
   "property": "C39",
   "status": "partial",
   "theorems": [
    "C39_mean_trimmed_partial",
    "C39_order_irrelevant_partial",
    "C39_all_axes",
    "C39_refused",
    "C39_empty_axis_refuted",
    "C39_keepdims_refuted"
   ],
   "note": "proved whenever the code does not refuse; refuted for arrays with another empty axis (ValueError) and for keepdims with several axes (they are replaced by their combination). q is an exact rational; out and dtype not modelled"
  },
  {
   "property": "C40",
   "status": "proved",
   "theorems": [
    "C40_cell_centers",
    "C40_order_irrelevant",
    "C40_random",
    "C40_affine"
   ],
   "note": "over any commutative ring with a half; float rounding not modelled"
  },
  {
   "property": "C41",
   "status": "proved",
   "theorems": [
    "C41_area",
    "C41_axis",
    "C41_grid",
    "C41_translation",
    "C41_linear",
    "C41_parallelogram",
    "C41_split",
    "C41_triangle"
   ],
   "note": "Exact arithmetic in any field. Components x and y are scalar arrays or numbers (not nested vectors); the grid may have further axes and components may lack axes."
  },
  {
   "property": "C42",
   "status": "proved",
   "theorems": [
    "C42_value",
    "C42_laws",
    "C42_refuses"
   ],
   "note": "Exact arithmetic in any field; all scalar products are those of the modelled vector @ vector. Units are not modelled."
  },
  {
   "property": "C43",
   "status": "proved",
   "theorems": [
    "C43_unravel_index_success",
    "C43_unravel_index"
   ],
   "note": ""
  },
  {
   "property": "C44",
   "status": "partial",
   "theorems": [
    "C44_where",
    "C44_copyto_partial",
    "C44_clip_partial",
    "C44_clip_broadcast_refuted",
    "C44_copyto_number_refuted"
   ],
   "note": "where is proved in full. copyto is proved for a dst that holds an ndarray; for a Python number the mask is ignored (refuted). clip is proved when the bounds fit into the array; bounds with further axes raise (refuted)"
  },
  {
   "property": "C45",
   "status": "proved",
   "theorems": [
    "C45_regrid",
    "C45_linear",
    "C45_adjoint",
    "C45_transpose",
    "C45_transpose_twice"
   ],
   "note": "Scalar values. The calculation of the weights is not modelled; applying and transposing them in the external package regridding is modelled from its contract. Values with an axis named like a resampled axis of the output are refused (example C45_name_clash)."
  },
  {
   "property": "C46",
   "status": "partial",
   "theorems": [
    "C46_numpy_integer_refuted",
    "C46_name_clash_refuted"
   ],
   "note": "violated by the code in two ways, both proved with witnesses; C08_setitem_success gives the positive part for python integers"
  },
  {
   "property": "C47",
   "status": "proved",
   "theorems": [
    "C47_array_equiv"
   ],
   "note": ""
  },
  {
   "property": "C48",
   "status": "partial",
   "theorems": [
    "C48_where",
    "C48_out_partial",
    "C48_two_outputs_refuted"
   ],
   "note": "proved except that several out arrays must store their axes in the same order; otherwise the second is filled with mislabelled data (refuted with a witness). An out that holds a Python number is not modelled"
  },
  {
   "property": "C49",
   "status": "partial",
   "theorems": [
    "C49_reduce_out_partial",
    "C49_reduce_out_refuted"
   ],
   "note": "Holds when out has the named shape of the result in any storage order. The refusal of wrongly named outputs is false: out with axes (x,) is accepted for a result with axes (y,) of the same size and the data is mislabelled."
  },
  {
   "property": "C50",
   "status": "partial",
   "theorems": [
    "C50_repeat_partial",
    "C50_repeat_by_name_refuted"
   ],
   "note": "Exact domain and lines, with counts taken by position. The by-name part is false of the code: the axis name of repeats is ignored, refuted with a witness. Negative counts are not modelled."
  },
  {
   "property": "C51",
   "status": "partial",
   "theorems": [
    "C51_cumulative_out_partial",
    "C51_cumulative_out_order_refuted"
   ],
   "note": "Holds when out stores its axes in the order of the input (with exact refusal of wrong shapes); false of the code for another order, refuted with a witness: the unaligned ndarray is handed to numpy with the axis position taken from out."
  },
  {
   "property": "C52",
   "status": "proved",
   "theorems": [
    "C52_concatenate_out",
    "C52_stack_out"
   ],
   "note": "Given that the call without out succeeds: success exactly when the sizes agree by name, then the same labelled values."
  },
  {
   "property": "C53",
   "status": "proved",
   "theorems": [
    "C53_partition",
    "C53_partitioned"
   ],
   "note": "The partition of one line is a parameter."
  },
  {
   "property": "C54",
   "status": "partial",
   "theorems": [
    "C54_missing_component_partial",
    "C54_dropped_refuted"
   ],
   "note": "Finding: components that the first operand lacks are dropped in silence; with the operands exchanged a KeyError is raised."
  },
  {
   "property": "C55",
   "status": "partial",
   "theorems": [
    "C55_getitem_broadcast_partial",
    "C55_size_one_refuted",
    "C55_slice_refuted"
   ],
   "note": "Finding: a component of size one along an indexed axis makes indexing fail or gives a vector without a shape."
  },
  {
   "property": "C56",
   "status": "partial",
   "theorems": [
    "C56_setitem_partial",
    "C56_setitem_success_partial",
    "C56_not_atomic_refuted",
    "C56_number_refuted"
   ],
   "note": "Finding: a component without the indexed axis, or a plain number, makes the assignment raise after earlier components have been changed."
  },
  {
   "property": "C57",
   "status": "partial",
   "theorems": [
    "C57_volume_partial",
    "C57_axis",
    "C57_tetrahedra",
    "C57_translation_partial",
    "C57_linear_partial",
    "C57_parallelepiped_partial",
    "C57_grid_partial",
    "C57_flat_refuted",
    "C57_size_one_refuted"
   ],
   "note": "False of the code in two ways: a flat grid, whose cells have volume zero, raises because the scalar product of zero components is a plain number that is then indexed; and a component with an axis of size one is sliced instead of broadcast, so the call raises. Proved: for components with the sizes of the grid the result, when there is one, is the signed volume and obeys the laws; an exception is IndexError and implies that a family of triangles has no common coordinate different from zero."
  },
  {
   "property": "C58",
   "status": "partial",
   "theorems": [
    "C58_axes_partial",
    "C58_shape_partial",
    "C58_refuted",
    "C58_empty_refuted"
   ],
   "note": "False of the code: a component that is zero everywhere (or empty) is replaced by the number 0 and its axes are lost. Proved: exactly the axes of the other pairs of components are kept, and the shape is right when all pairs are different from zero somewhere."
  },
  {
   "property": "C59",
   "status": "proved",
   "theorems": [
    "C59_rotates",
    "C59_length",
    "C59_sum",
    "C59_orthogonal",
    "C59_determinant"
   ],
   "note": "Cosine and sine are any functions from angles to a field with the addition formulas and cosine^2 + sine^2 = 1; elements are exact, units are not modelled."
  },
  {
   "property": "C60",
   "status": "partial",
   "theorems": [
    "C60_getitem",
    "C60_success",
    "C60_basic_partial",
    "C60_reduce",
    "C60_basic_refuted"
   ],
   "note": "Proved for indexing with any items (with the exact condition for success), for integers and slices when nominal value and samples agree about the sizes, and for reductions without mask. Refuted when one of them has size 1 along an axis: an integer within the shape raises IndexError, and a slice gives parts with different sizes. Boolean masks, out and dtype are not modelled."
  },
  {
   "property": "C61",
   "status": "proved",
   "theorems": [
    "C61_percentile",
    "C61_storage_order",
    "C61_out"
   ],
   "note": "The percentile of a list of numbers is any symmetric function. Arrays without elements (where numpy's functions differ) and an output of another size are not covered."
  },
  {
   "property": "C62",
   "status": "partial",
   "theorems": [
    "C62_integrate_partial",
    "C62_constant",
    "C62_linear",
    "C62_other_bins_refuted",
    "C62_one_bin_refuted",
    "C62_single_refuted"
   ],
   "note": "Proved for one axis if no other axis has bins and the outputs lack the axis or have as many samples or bins as the inputs require. Refuted: another axis of bins raises ValueError (with a single bin it turns into two samples), and outputs of size 1 cannot be integrated although the broadcast function can. Vector inputs, components and units are not modelled."
  },
  {
   "property": "C63",
   "status": "partial",
   "theorems": [
    "C63_reduce_partial",
    "C63_keepdims_partial",
    "C63_cumulative",
    "C63_cumulative_axis",
    "C63_constant_refuted",
    "C63_keepdims_refuted"
   ],
   "note": "Cumulative functions are proved for every axis of the shape and refuse other axes, reductions for outputs as long as the shape. Refuted: along an axis of the inputs only the output is not repeated, so the sum is not the last cumulative sum; with keepdims, the default, the inputs stay, so that three bins become a function of four points. where, out, dtype and initial are not modelled."
  },
  {
   "property": "C64",
   "status": "partial",
   "theorems": [
    "C64_moveaxis_partial",
    "C64_one_part_refuted",
    "C64_merge_refuted"
   ],
   "note": "Proved if each part has one of the renamed axes, the new names keep the axes of the shape apart and the names can be replaced one after the other. Refuted: an axis of one part alone cannot be renamed (ValueError), and a new name that is an axis of the other part is accepted and merges the two axes."
  },
  {
   "property": "C65",
   "status": "proved",
   "theorems": [
    "C65_take_along_axis",
    "C65_concatenate"
   ],
   "note": "Scalar inputs and outputs, no out. Indices out of range and axes that cannot be broadcast are those of C17 and C18."
  },
  {
   "property": "C66",
   "status": "partial",
   "theorems": [
    "C66_ufunc_partial",
    "C66_commutative_refuted",
    "C66_shape_refuted"
   ],
   "note": "Success and values are proved exactly. Refuted: the inputs of the result are those of the first function even if another has more axes, so that f + g and g + f have different shapes; a scalar array is broadcast with the outputs only, so that three samples become two bins or no function at all. out and where are not modelled."
  },
  {
   "property": "C67",
   "status": "partial",
   "theorems": [
    "C67_self_partial",
    "C67_self_scalar",
    "C67_number",
    "C67_array",
    "C67_bin_refuted",
    "C67_one_part_refuted",
    "C67_atomic_refuted"
   ],
   "note": "Proved for scalar arrays, for numbers, and for selections of function arrays by slices along axes of bins and any items along axes of both parts; scalar arrays with axes are refused. Refuted: a single bin, or an item along an axis of one part, can be read but not assigned back; an exception leaves the inputs changed. Masks and items that are function arrays are not modelled."
  },
  {
   "property": "C68",
   "status": "partial",
   "theorems": [
    "C68_interp_partial",
    "C68_lengths",
    "C68_axis",
    "C68_uninitialised_refuted",
    "C68_integers_refuted",
    "C68_constant_refuted"
   ],
   "note": "Proved for points whose shared axes have size 1 or the size of the samples, whatever numpy's one-dimensional interpolation is. Refuted: where the samples have an axis of size 1 and the points a longer one, all but the first position are uninitialised memory; integer samples truncate the result; samples without the axis are refused. Units are not modelled."
  },
  {
   "property": "C69",
   "status": "partial",
   "theorems": [
    "C69_broadcasted",
    "C69_transpose",
    "C69_reshape_scalar",
    "C69_reshape",
    "C69_repeat",
    "C69_order_refuted"
   ],
   "note": "All proved for compatible parts. Refuted: transposing a function with bins does not reverse its shape, since the shape always lists axes of bins last."
  },
  {
   "property": "C70",
   "status": "partial",
   "theorems": [
    "C70_percentile",
    "C70_position_refuted"
   ],
   "note": "Shape and values are proved. Refuted: along an axis of bins the percentile stands at the mean of the vertices, every other reduction at the mean of the middles of the bins. out is not modelled."
  },
  {
   "property": "C71",
   "status": "partial",
   "theorems": [
    "C71_plain",
    "C71_masked_partial",
    "C71_mask_refuted",
    "C71_transposed_refuted",
    "C71_broken_refuted",
    "C71_atomic_refuted"
   ],
   "note": "Proved without a mask, and for the outputs with a mask. Refuted: a mask replaces all inputs by the buffer of the source, so that points that are masked out change their inputs, inputs stored in another order are transposed, and inputs with fewer axes leave an array with more names than dimensions; an exception leaves new inputs with old outputs. Boolean inputs and arrays with units are not modelled."
  },
  {
   "property": "C72",
   "status": "partial",
   "theorems": [
    "C72_choice_partial",
    "C72_refused",
    "C72_lawful",
    "C72_choice_refuted"
   ],
   "note": "Proved except where shape_random is longer along an axis of size 1 of the choices; there the elements are uninitialised (refuted with a witness)."
  },
  {
   "property": "C73",
   "status": "partial",
   "theorems": [
    "C73_despike_partial",
    "C73_order_partial",
    "C73_order_refuted",
    "C73_kernel_refuted",
    "C73_kernels_refuted"
   ],
   "note": "Values proved with the axes in storage order. Independence of the storage order holds for detectors that treat rows and columns alike and without a kernel; refuted with witnesses otherwise."
  },
  {
   "property": "C74",
   "status": "proved",
   "theorems": [
    "C74_point_in_polygon",
    "C74_order",
    "C74_missing",
    "C74_vertex_axis",
    "C74_no_vertices"
   ],
   "note": "Units are not modelled; the test of one point is a parameter."
  },
  {
   "property": "C75",
   "status": "partial",
   "theorems": [
    "C75_evaluate_partial",
    "C75_conflict",
    "C75_missing",
    "C75_names_refuted",
    "C75_constant_refuted"
   ],
   "note": "Proved for expressions with variables none of which has the name of an argument; refuted for the others. Reductions inside expressions and units are not modelled."
  },
  {
   "property": "C76",
   "status": "partial",
   "theorems": [
    "C76_fft",
    "C76_fft_refused",
    "C76_fftn_partial",
    "C76_fftn_refused",
    "C76_order",
    "C76_irfftn_refuted"
   ],
   "note": "Everything proved except the default lengths of irfftn, which are refuted."
  },
  {
   "property": "C77",
   "status": "partial",
   "theorems": [
    "C77_uniform",
    "C77_between",
    "C77_samples_partial",
    "C77_stratum",
    "C77_increasing",
    "C77_decreasing",
    "C77_inside_partial",
    "C77_outside_refuted",
    "C77_refused"
   ],
   "note": "Refuted without centers: the first sample can be before start (C77_outside_refuted). One edge and no centers raise (C77_refused). Everything else is proved for all shapes, flags and generators."
  },
  {
   "property": "C78",
   "status": "partial",
   "theorems": [
    "C78_convolve",
    "C78_convolve_missing",
    "C78_convolve_conflict",
    "C78_convolve_order",
    "C78_filter",
    "C78_filter_refused",
    "C78_filter_order",
    "C78_uncertain_partial",
    "C78_uncertain_refused",
    "C78_string",
    "C78_string_refuted"
   ],
   "note": "Refuted for uncertain scalars when the axis is a string of several characters (C78_string_refuted); every other way to give the axes is proved, scalars and filters without restriction. Order of storage: with explicit axes (with axis=None the kernel's own order of axes is handed to the package)."
  },
  {
   "property": "C79",
   "status": "partial",
   "theorems": [
    "C79_terms",
    "C79_center",
    "C79_design",
    "C79_design_unknown",
    "C79_fit_partial",
    "C79_normal_partial",
    "C79_recovery_partial",
    "C79_least_partial",
    "C79_call",
    "C79_constant_refuted",
    "C79_axes_refuted"
   ],
   "note": "Refuted for the constant term alone (C79_constant_refuted) and for outputs with further axes when no axis is given (C79_axes_refuted); proved for all other fits whose mask has only axes of the inputs, whose fitted axes are axes of the inputs and whose outputs do not stretch the inputs, wherever the matrix of products is invertible (four or more terms: np.linalg.inv is assumed to return the inverse there)."
  },
  {
   "property": "C80",
   "status": "partial",
   "theorems": [
    "C80_small",
    "C80_large",
    "C80_symmetric_partial",
    "C80_refuted"
   ],
   "note": "Refuted: with four or more rows the result is the transposed inverse (C80_refuted, for every np.linalg.inv that is right on the witness). C80_large determines the result completely: its entries are those of the inverse with the positions exchanged, and the products are the identity exactly for matrices that are symmetric by position (C80_symmetric_partial)."
  },
  {
   "property": "C81",
   "status": "partial",
   "theorems": [
    "C81_matrix",
    "C81_gradient",
    "C81_scalar_partial",
    "C81_curve_partial",
    "C81_affine",
    "C81_affine_gradient",
    "C81_product",
    "C81_number_refuted",
    "C81_step_types"
   ],
   "note": "Proved for vectors and scalar arrays; refuted for plain numbers, which the declared types allow (C81_number_refuted)."
  },
  {
   "property": "C82",
   "status": "partial",
   "theorems": [
    "C82_values",
    "C82_axis_absent",
    "C82_shapes_conflict",
    "C82_all",
    "C82_functions_partial",
    "C82_functions_where_partial",
    "C82_functions_refuted",
    "C82_mask_of_scalar"
   ],
   "note": "Values, shapes and refusals are proved; refuted for np.ndim and np.count_nonzero, which are listed but always raise (C82_functions_refuted)."
  },
  {
   "property": "C83",
   "status": "partial",
   "theorems": [
    "C83_returns",
    "C83_history_partial",
    "C83_affine_partial",
    "C83_default",
    "C83_default_affine",
    "C83_linear_partial",
    "C83_refuted"
   ],
   "note": "The history, the outcome and exactness for affine functions are proved where the Jacobian is inverted: all regular matrices of up to three rows and the symmetric ones of more; refuted for four components (C83_refuted)."
  },
  {
   "property": "C84",
   "status": "partial",
   "theorems": [
    "C84_history_partial",
    "C84_bowl_partial",
    "C84_exact_partial",
    "C84_default",
    "C84_refuted",
    "C84_documented_refuted"
   ],
   "note": "Proved for vectors of every kind; refuted for scalar guesses, which raise TypeError although the annotation allows them (C84_refuted), and for the rule as documented, which uses z_k instead of z_{k+1} (C84_documented_refuted)."
  },
  {
   "property": "C85",
   "status": "partial",
   "theorems": [
    "C85_convolve_partial",
    "C85_polynomial_partial",
    "C85_commutes",
    "C85_axes",
    "C85_empty",
    "C85_refuted"
   ],
   "note": "Proved for arrays of the same length or with one of length one; refuted for two different lengths, which always raise ValueError (C85_refuted)."
  },
  {
   "property": "C86",
   "status": "partial",
   "theorems": [
    "C86_array_equal_partial",
    "C86_array_equiv_partial",
    "C86_allclose",
    "C86_allclose_types",
    "C86_array_equal_refuted"
   ],
   "note": "Proved when the type decides the component names and no scalar meets a vector the wrong way round; array_equal also needs the axes stored in the same order (C38). Refuted for vectors of one type with different components and for a scalar before a vector (C86_array_equal_refuted)."
  },
  {
   "property": "C87",
   "status": "partial",
   "theorems": [
    "C87_transpose",
    "C87_transpose_reverse",
    "C87_reshape",
    "C87_diff",
    "C87_repeat",
    "C87_cumulative",
    "C87_take_along_axis",
    "C87_moveaxis_partial",
    "C87_moveaxis_refuted"
   ],
   "note": "All functions are proved for every vector except np.moveaxis, which needs the new names of all axes of the vector to be distinct. Refuted otherwise: two axes of different components are silently merged (C87_moveaxis_refuted)."
  },
  {
   "property": "C88",
   "status": "partial",
   "theorems": [
    "C88_sort_partial",
    "C88_argsort_partial",
    "C88_refused",
    "C88_all",
    "C88_unravel_index_partial",
    "C88_unravel_index_missing",
    "C88_argsort_refuted",
    "C88_unravel_index_refuted"
   ],
   "note": "Sorting is proved for every vector whose other axes are not empty and not named like the combination of the sorted ones (as for scalars, C16). Indexing with argsort needs components of full size; refuted otherwise (C88_argsort_refuted). unravel_index needs the axes of shape among the axes of the indices; refuted otherwise: every such call raises KeyError (C88_unravel_index_missing, C88_unravel_index_refuted)."
  },
  {
   "property": "C89",
   "status": "proved",
   "theorems": [
    "C89_concatenate",
    "C89_missing_axis",
    "C89_stack",
    "C89_types"
   ],
   "note": "The exact domain, shapes and elements of both functions for lists whose vectors have components at every level."
  },
  {
   "property": "C90",
   "status": "proved",
   "theorems": [
    "C90_argmin",
    "C90_argmin_min",
    "C90_all_axes",
    "C90_refused"
   ],
   "note": "The elements, the dictionary and the refusals, for every order of the keys of the dictionary."
  },
  {
   "property": "C91",
   "status": "partial",
   "theorems": [
    "C91_where",
    "C91_where_types",
    "C91_clip_partial",
    "C91_clip_types",
    "C91_copyto_partial",
    "C91_copyto_types",
    "C91_clip_broadcast_refuted",
    "C91_copyto_vector_mask_refuted",
    "C91_copyto_number_refuted",
    "C91_copyto_types_refuted",
    "C91_copyto_unchanged_refuted"
   ],
   "note": "where holds in full; clip for bounds that fit into the components; copyto for scalar masks, destinations without plain numbers and sources of the same structure. The rest is refuted: vector masks are refused, plain numbers and vectors of other types are replaced regardless of the mask, a failing call leaves earlier components changed."
  },
  {
   "property": "C92",
   "status": "partial",
   "theorems": [
    "C92_positions",
    "C92_positions_0d",
    "C92_mask_partial",
    "C92_mask_refuted",
    "C92_vector_partial",
    "C92_vector_conflict",
    "C92_vector_numbers",
    "C92_vector_refuted"
   ],
   "note": "The positions hold for every scalar array, indexing by them equals masking for every mask with axes, and vectors of masks give the positions where every component is true. Refuted for masks without axes (the positions select everything) and for vectors of integers (combined bit by bit)."
  },
  {
   "property": "C93",
   "status": "partial",
   "theorems": [
    "C93_values_partial",
    "C93_axis_absent",
    "C93_conflict",
    "C93_shared",
    "C93_vector_of_scalar_refuted",
    "C93_vector_of_scalar_absent",
    "C93_q_vector_refuted"
   ],
   "note": "The values and shapes hold for every scalar q and every vector q with a suitable value for each component; absent axes, components that do not broadcast and scalar q that share an axis are refused. Refuted for vector q of other types and with shared axes, which are accepted or fail with other exceptions. out is not modelled."
  },
  {
   "property": "C94",
   "status": "proved",
   "theorems": [
    "C94_fft",
    "C94_fft_refused",
    "C94_fftn",
    "C94_fftn_refused",
    "C94_conflict"
   ],
   "note": "The default lengths of irfftn, which are not those of numpy, are the subject of C76."
  },
  {
   "property": "C95",
   "status": "partial",
   "theorems": [
    "C95_copy",
    "C95_inplace_partial",
    "C95_inplace_refused",
    "C95_inplace_component_refuted",
    "C95_inplace_number_refuted"
   ],
   "note": "Holds with a copy. In place it holds where the elements are stored in arrays; refuted for numbers, which silently stay as they are, and for implicit components, which are refused after part of the vector has been written."
  },
  {
   "property": "C96",
   "status": "partial",
   "theorems": [
    "C96_transpose",
    "C96_transpose_default",
    "C96_moveaxis_partial",
    "C96_moveaxis_missing",
    "C96_moveaxis_few",
    "C96_reshape_partial",
    "C96_reshape_no_samples_refuted",
    "C96_moveaxis_merge_refuted"
   ],
   "note": "Transposition holds. Renaming holds when the new names are apart; refuted otherwise, two axes of different parts are merged silently. Reshaping holds with samples; without samples every call raises KeyError."
  },
  {
   "property": "C97",
   "status": "partial",
   "theorems": [
    "C97_copyto_partial",
    "C97_copyto_number_refuted",
    "C97_copyto_mask_refuted",
    "C97_copyto_mask_declined_refuted",
    "C97_clip_partial",
    "C97_clip_named",
    "C97_clip_certain_refuted"
   ],
   "note": "copyto holds for masks that are not uncertain and parts stored in arrays; refuted for uncertain masks, which are ignored, for numbers, and for a distribution that is refused after the nominal values were written. clip holds when the bounds fit part by part; refuted for uncertain bounds of certain arrays."
  },
  {
   "property": "C98",
   "status": "partial",
   "theorems": [
    "C98_cumulative_partial",
    "C98_partition",
    "C98_repeat",
    "C98_diff_partial",
    "C98_diff_certain_refuted"
   ],
   "note": "Holds in every world. Partial: an absent axis of a cumulative operation is a KeyError, and the ends of differences must fit part by part; refuted for arrays without uncertainty and uncertain ends."
  },
  {
   "property": "C99",
   "status": "partial",
   "theorems": [
    "C99_array_equal_partial",
    "C99_array_equiv_partial",
    "C99_allclose",
    "C99_allclose_refused",
    "C99_mixed_refuted",
    "C99_array_equal_stored_refuted"
   ],
   "note": "allclose holds in full. array_equal and array_equiv hold for two uncertain scalars (array_equal: with the parts stored alike); refuted for arguments without uncertainty, which raise AttributeError, and for distributions stored without an axis along which they are constant."
  }
 ]
}