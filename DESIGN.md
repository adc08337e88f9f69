# Formal model of named-arrays: design

The model is written in Rocq/Coq 8.16.1 under `rocq/theories`.  It models the
Python code of `/repo/named_arrays` as small, total, executable functions with
exceptions as values.  Properties are in `properties.jsonl`, their status in
`MANIFEST.json`, attempts to break the theorems in `seeded/LOG.jsonl`.

## Trusted base

* **The Coq 8.16.1 kernel.**  `vm_compute` is used in the Examples only.
* **Axioms: none.**  `Print Assumptions` stands under every theorem of the
  `Prop*.v` files, and each prints `Closed under the global context`.  There is
  no `Axiom`, no `Parameter`, no section-less `Variable`, no `Admitted`, no
  functor, and no kernel check is switched off.  Abstract arithmetic (a ring, a
  field, an order) is always a *hypothesis inside the statement* of the theorem.
* **The model of numpy** (`Numpy.v`, and the parts of `Sorting.v`, `Hist.v` and
  `Regrid.v` marked as such).  numpy and the package `regridding` are not in the
  repository.  What the library relies on is stated there as executable
  definitions: broadcasting, transposing, basic and advanced indexing, reshape,
  reductions over a tuple of axes, bins of a histogram, and so on.
* **The reading of the code.**  Every definition cites the file and the lines it
  models.  The theorems speak about the model only; that the model does what the
  Python does was checked by reading, not by running.
* **The specifications** (`Spec.v` and `Spec*.v`): they do not mention the helpers
  of the library.

## Representation

* A numpy array is a shape (`list nat`) and an index function
  (`list nat -> A`); only in-bounds indices are meaningful, and every theorem
  about contents quantifies over in-bounds indices only.
* A `dict[str, int]` shape is an association list with string keys in insertion
  order, without duplicate keys.
* A `ScalarArray` is a list of axis names plus an ndarray; the constructor
  `mk_sarr` is the model of `__post_init__` and fails like it.  A plain Python
  number where an array is expected is the second case of the type `operand`.
* Python exceptions are values of the type `err` in a result type `res`.  The kind
  of the exception is modelled, its message is not.
* Assignment through a view: the same indexing is applied to the array of all
  positions, and the values are written there in order.
* Vectors, matrices and nested structures are trees.  Classes are names.
* Specifications are stated through *labelled lookup*: an environment maps axis
  names to positions, and `at_ a e` reads the element of `a` there.  That notion
  does not mention alignment, storage order or any helper of the library.

## Files

`Base` – `Emath` are the model, `Spec*` the specifications, `*Facts` the proofs,
`Prop*` the theorems of the properties (each closed by `exact`, with an Example
that meets the hypotheses and `Print Assumptions`).

| file | code modelled | simplifications |
|------|---------------|-----------------|
| `Numpy` | numpy primitives | no dtypes, no strides; views as in *Representation* |
| `Shapes` | `_core.py` 170-203, 219-249, 264-279: `broadcast_shapes`, `ndindex`, `flatten_axes` | `axis_ignored` of `ndindex` as given |
| `Scalar` | `_scalars/scalars.py` 283-388 (aligned), 407-488 (`_getitem`), 527-610 (ufuncs), 889-900 (constructor), 1025-1030, 1047-1128 (`__setitem__`) | units and dtypes are left out |
| `Reorder` | `scalar_array_functions.py` 535-585, 841-876, `scalars.py` 331-388: `broadcast_to`, `transpose`, `moveaxis`, `reshape`, `array_equal(iv)`, `add_axes`, `combine_axes`, `change_axis_index` | |
| `Elementwise` | ufunc with `out` and `where`, `np.where`, `np.clip`, `np.copyto` | an `out` that holds a Python number is not modelled (for reductions it is, in `History`) |
| `Reduce` | `scalar_array_functions.py` 179-242, `_core.py` 282-303 | the numpy function on the elements of a cell is a parameter; `dtype` is left out |
| `Along` | cumulative functions, `diff`, `repeat`, `concatenate`, `stack`, `take_along_axis` | negative `n` of `diff` and negative repeats are left out; numpy only warns about indices out of range if the result is empty |
| `Sorting` | `sort`, `argsort`, `partition`, `argmin`/`argmax`, `unravel_index` | the sort of one line is a parameter with the properties of a stable sort |
| `Derived` | `_core.py` 820-896, `_debroadcast`, `mean_trimmed`, `cell_centers` | `q` exact; `out`, `dtype` left out; the draws of `random=True` are an input |
| `Interp` | `na.step`, `na.linspace`, `interp_linear` | exact rationals; division by zero is an exception; no dtype, no units |
| `Vector` | `_vectors/vectors.py` indexing, assignment, ufuncs, shape; `cartesian_nd` | `out`/`where` of ufuncs left out; masks of another vector type are errors; the order in which numpy asks subclasses is ignored |
| `Struct` | `na.getitem`, `na.shape`, `pack`, `unpack` | dataclass fields with `init=False`, units, function and uncertain arrays left out; the cast of `unpack` is abstract |
| `Matrix` | `_matrices/matrices.py` 55-385, 2D and 3D determinants, `vector @ vector` | rows are vectors of scalars; inverse for 1 to 3 rows; division by zero has no exception; no units |
| `Geometry` | `cross`, `volume_cell` of 2D and 3D vectors | no units, components are not nested |
| `Transform` | `transformations.py` 41-105, 191-692 | elements of a list are composed before they are joined (order of exceptions) |
| `Rotation` | rotation matrices 2D and 3D | cosine and sine are parameters |
| `Optimize` | `optimize_root_newton`, `optimize_root_secant` for scalars | arithmetic, `abs` and `<` abstract; the callback is a recorded history; no units |
| `Rank` | `stats.py` 103-205 | NaN is `None`, ranks exact, no units |
| `Pdf` | `pdf.py` 16-70 | exact rationals, division by zero gives zero |
| `Func` | `_functions/functions.py` 53-98, 562-607, 1013-1079 | scalar inputs and outputs; items that are function arrays and masks are left out |
| `Uncertain` | uncertain scalars: ufuncs, `where`, indexing, broadcasting, reductions | `out`/`where`, dtype, masks, units left out |
| `Dispatch` | `_named_array_functions.py` 52-78 | Python's `sorted` modelled for lists under 64 elements (binary insertion) |
| `Random` | seeds of random scalars, uncertain scalars and vectors | the generator is abstract; no units |
| `Hist` | `na.histogram`, `histogram2d`, `histogramdd` | exact numbers, no NaN, no `density`, no units |
| `Regrid` | `regrid_from_weights`, `transpose_weights` | the calculation of the weights is not modelled; cells out of range are an error |
| `History` | programs of 33 calls on scalar arrays, `from_scalar_array`, reductions into an `out` with a number | writes by the caller through aliases are an arbitrary `Write`; an exception leaves the arrays alone |
| `Quantile` | `np.percentile` and its relatives on scalar arrays | the percentile of one line is abstract, as is the range of `q`; no empty arrays |
| `FuncOps` | operations on function arrays: `functions.py` 434-507, 713-803, 1099-1157, `function_array_functions.py` 32-404, 407-497, 599-624, `function_named_array_functions.py` 105-131 | scalar inputs and outputs; no `where`, `out`, `dtype`, `initial`, units |
| `InterpAxis` | `na.interp`: `scalar_named_array_functions.py` 220-286 | numpy's one-dimensional `interp` is a parameter; no units |
| `Choice` | `na.random.choice`: `scalar_named_array_functions.py` 778-846 | numpy's generator is a parameter that follows numpy's rules (`lawful`); weights are exact rationals; the conversion to the data type of the result is a parameter; no units |
| `Despike` | `na.despike`: `scalar_named_array_functions.py` 1999-2079 | `astroscrappy.detect_cosmics` is a parameter of two-dimensional images; its numeric parameters are fixed inside it |
| `Polygon` | `na.geometry.point_in_polygon`: `scalar_named_array_functions.py` 2132-2178, `geometry/_point_in_polygon.py` 95-190 | `regridding.geometry.point_is_inside_polygon` is a parameter; no units |
| `NumExpr` | `na.numexpr.evaluate`: `numexpr.py` 16-143, `scalar_named_array_functions.py` 2082-2129 | expressions are parsed trees; no reductions, no units; the frame of the caller is a pair of dictionaries |
| `Fourier` | `np.fft`: `scalar_array_functions.py` 416-463 | the one-dimensional transforms of numpy are parameters, with their lengths; numpy's order of the axes in `fftn`, `rfftn`, `irfftn` is modelled |
| `Strata` | uniform random samples (`random.uniform`, `AbstractUniformRandomSample.explicit`) and stratified random spaces (`AbstractStratifiedRandomSpace.explicit`, `strata`), exact rationals; the generator is a function from seed, sizes and position to a number in [0, 1) | units, vectors, the generator itself |
| `Filter` | `convolve` for scalars and uncertain scalars, `ndfilters.mean_filter` and its variants for scalars; the convolution or filter along the chosen axes is any function of the sizes, the values, the mask and the position | the functions of the package ndfilters themselves (boundary modes), units, `convolve` for vectors |
| `Poly` | `PolynomialFitFunctionArray` (functions.py:1162-1422) for scalar outputs: terms of a degree, design matrix, coefficients, calls; values in any field; `np.linalg.inv` (four or more terms) is any function of the table of entries | vector-valued outputs, uncertain inputs, units, `degree` per component |
| `BigMatrix` | `AbstractMatrixArray.inverse` for any number of rows (matrices.py:170-255 with scalars.py:761-787); `np.linalg.inv` is any function of the table of entries | units, stacks of matrices inside `np.linalg.inv` (it is applied position by position) |
| `Jacobian` | `na.jacobian` with a given step, the scalar and the vector implementation, `asanyarray(dx, like=x)` | units, the default step, uncertain arrays, functions whose value changes type; the function has no state |
| `VectorReduce` | `array_function_default` for vectors (reductions with `axis`, `keepdims` and `where`), `bool(v)`, the list `DEFAULT_FUNCTIONS` with the keywords of numpy's signatures | `dtype`, `out` and `initial` |
| `VectorOptimize` | `root_newton` and `optimize_root_newton` for vectors with the default jacobian, `minimum_gradient_descent` and `optimize_minimum_gradient_descent` with the default gradient | units, a `callback` or a `function` with state, `max_abs_error=None` |
| `Convolve` | `np.convolve` of scalar arrays: `scalar_array_functions.py` 970-996 | arrays that hold `None`, units |
| `VectorEqual` | `array_equal`, `array_equiv`, `allclose` of vectors: `vector_array_functions.py` 758-838 | `equal_nan`, the numbers `rtol` and `atol` (any relation of closeness is allowed) |
| `VectorAxes` | `transpose`, `moveaxis`, `reshape`, `repeat`, `diff`, `take_along_axis` and the cumulative functions of vectors: `vector_array_functions.py` 216-264, 507-551, 701-733, 950-1001; `vector_named_array_functions.py` 186-202 | `out`, `dtype`, vectors as `prepend`, `append` or `repeats` |
| `VectorSort` | `sort`, `argsort` and `unravel_index` of vectors: `vector_array_functions.py` 621-697, 736-755 | `kind`, `order`; `unravel_index` only for components that are scalars; an axis of the indices that is not in `shape` gets the default components of the class, here they are left out |
| `VectorStack` | `concatenate` and `stack` of vectors and scalars: `vector_array_functions.py` 554-618 | `out`, `dtype`, `casting` |
| `VectorArg` | `argmin` and `argmax` of vectors: `vector_array_functions.py` 319-360 | the order of the keys of the dictionary is that of a `set`, an arbitrary order in the model |
| `VectorChoice` | `where`, `clip` and `copyto` of vectors: `vector_array_functions.py` 457-505, 853-880, 915-955 | `clip` without `out`; `casting` is not modelled; a scalar array in `dst` holds an ndarray |
| `Nonzero` | `np.nonzero` of scalars and vectors: `scalar_array_functions.py` 910-919, `vector_array_functions.py` 841-850 | components of vectors that are scalars with boolean or integer elements; numpy's own function refuses plain numbers (numpy 2.1 and later) |
| `VectorQuantile` | percentiles and quantiles of vectors: `vector_array_functions.py` 267-316 | without `out`, `overwrite_input` and `method`; the percentile of a list is a parameter that does not depend on the order |
| `VectorFourier` | Fourier transforms of vectors: `vector_array_functions.py` 363-424 | without `norm`; the transform of a line is a parameter as in `Fourier` |
| `NanToNum` | `np.nan_to_num`: `scalar_array_functions.py` 947-967, `uncertainties_array_functions.py` 925-943, `vector_array_functions.py` 883-912 | the replacement of one element is a parameter; which types are explicit is a parameter; components that share memory are not modelled |
| `UncertainReorder` | `uncertainties_array_functions.py` 523-603 (`transpose`, `moveaxis`, `reshape`) | sizes of a new shape are nonnegative |
| `UncertainChoice` | `uncertainties_array_functions.py` 474-521 (`copyto`), 955-993 (`clip`), `uncertainties.py` 56-69 | `clip` without `out`; destinations hold ndarrays or numbers; whether elements can be read as a mask is a parameter; `casting` is not modelled |
| `UncertainAlong` | `uncertainties_array_functions.py` 180-236 (`cumulative_reduce`), 736-781 (`partition`), 996-1016 (`repeat`), 1019-1052 (`diff`) | no `out` or `dtype`; the scan, the partition of a list and the subtraction are parameters |
| `UncertainEqual` | `uncertainties_array_functions.py` 803-886 (`array_equal`, `array_equiv`, `allclose`) | the comparison of two numbers is a parameter; `equal_nan` and the tolerances only change it |
| `UncertainJoin` | `uncertainties_array_functions.py` 612-662 (`stack`, `concatenate`) | without `out`, `dtype` and `casting` |
| `UncertainFourier` | `uncertainties_array_functions.py` 377-440 (`fft`, `ifft`, `rfft`, `irfft` and the n-dimensional ones) | the transform of one line is a parameter, as in `Fourier` |
| `UncertainTake` | `uncertainties_array_functions.py` 708-733 (`take_along_axis`), `uncertainties_named_array_functions.py` 123-144 (`broadcast_to` with `append`) | |
| `UncertainSort` | `uncertainties_array_functions.py` 665-705 (`sort`, `argsort`) | `kind` and `order` (part of the sorting function) |
| `UncertainQuantile` | `uncertainties_array_functions.py` 242-336 (`array_function_percentile_like`) | `out`, `overwrite_input`, `method` (part of the combining function) |
| `UncertainArg` | `uncertainties_array_functions.py` 339-374 (`array_function_arg_reduce`) | the picking function itself (any function that finds the first least element) |
| `UncertainNonzero` | `uncertainties_array_functions.py` 889-895 (`nonzero`) | rounding: the product of many small samples can underflow to zero, and then the element is left out though no factor is zero; the annotation promises uncertain entries but plain scalar arrays are returned |
| `UncertainUnravel` | `uncertainties_array_functions.py` 784-800 (`unravel_index`) | indices that are not integers |
| `UncertainLinspace` | `uncertainties_array_functions.py` 79-112 (`array_function_sequence`) for `np.linspace` | `dtype`, `np.logspace` and `np.geomspace`, arguments that are vectors, rounding |
| `Emath` | `scalar_array_functions.py` 466-485, `uncertainties_array_functions.py` 443-463 (`array_function_emath`) | the function of one element is a parameter; whether numpy stores the result as real or complex numbers |

Not expressible here: floating-point rounding (all arithmetic is exact, over an
abstract ring/field or Z/Q), units (`astropy.units`), plotting, FFT numerics,
colour synthesis, and the numba kernels of the external `regridding` package.

## Findings

The property is false of the code (each is a theorem `..._refuted` with a concrete
input; what remains true is proved beside it):

* **C04**: a reduction into `out=ScalarArray(number)` leaves an array with dimensions and no axis names; `np.copyto` replaces `dst.ndarray` by `src.ndarray` whatever its dimensions if numpy raises `TypeError`; `from_scalar_array(ndarray)` has dimensions and no names.
* **C11**: `change_axis_index` puts the axis one place after the requested one.
* **C12**: `combine_axes` raises `ValueError` if a kept axis has size 0.
* **C13**: `moveaxis` renames one axis at a time: an exchange of names is ignored and a chain depends on the storage order.
* **C16**: `sort` and `argsort` refuse an array with another, empty axis, and names that clash with the flattened name.
* **C20**: a `NamedTuple` can be packed but not unpacked.
* **C21**: a leaf that is a dataclass *type* makes `na.getitem` raise.
* **C27, C28**: matrices whose rows list their columns in different orders have a wrong inverse and determinant, hence so does the inverse of a transformation.
* **C30**: `optimize_root_secant` counts an element whose first value is NaN or infinite as converged.
* **C31**: `rankdata` raises on an empty axis and ignores `where=False`.
* **C32**: `argpercentile` gives −1 at `q=100`, and `IndexError` if `q` broadcasts an axis of size 1.
* **C33**: indexing a function array with bin edges is wrong for negative integers and bounds, for steps, and accepts integers out of range.
* **C35**: dispatch prefers a base class to its subclass; the order is not compatible with subclassing.
* **C36**: the rows of a random matrix, or nested vectors, share seeds, hence have identical samples; the samples of an uncertain component share the seed of the next component.
* **C37**: `histogram` and `histogramdd` with `bins={axis: n}` give `n-1` cells; `n=1` loses all samples, `n=0` raises.
* **C38**: `array_equal` ignores the axis names.
* **C39**: `mean_trimmed` refuses another empty axis; `keepdims` with several axes replaces them by one.
* **C44**: `clip` refuses bounds with further axes; `copyto` into an array holding a number ignores `where`.
* **C46**: assignment refuses numpy integers and a name clash that indexing accepts.
* **C48**: with two `out` arrays in different storage orders the second is mislabelled.
* **C49, C51**: `out` of a reduction with a wrong axis name is accepted; `out` of a cumulative function in another storage order is mislabelled.
* **C50**: `repeat` ignores the axis name of `repeats`.
* **C54**: components that the first vector lacks are dropped in silence.
* **C55, C60**: indexing a vector or uncertain array that has a component of size 1 along the axis fails or gives an array without a shape.
* **C56**: assignment to a vector is not atomic, and refuses a component that is a number.
* **C57**: `volume_cell` in 3D raises on a flat grid.
* **C58**: the scalar product drops the axes of components that are zero everywhere or empty.
* **C62**: `integrate` raises `ValueError` if another axis has bins (one bin turns into two samples), and if the outputs have size 1 along the axis.
* **C63**: a reduction of a function array along an axis of its inputs only counts the constant output once, while `cumsum` counts it for every point; with `keepdims=True`, the default, the inputs stay, so that the sum of three bins is a function of four points.
* **C64**: `moveaxis` of a function array raises if one part has none of the axes, and accepts a new name that is an axis of the other part, merging the two.
* **C66**: the inputs of an elementwise function are those of the first function array: `f + g` and `g + f` can have different shapes; a scalar array is broadcast with the outputs only, which turns three samples into two bins, or gives inputs and outputs that do not fit.
* **C67**: a single bin of a function array, or an item along an axis of one part only, can be read but not assigned back; an exception leaves new inputs with old outputs.
* **C68**: `na.interp` loops over the shape of the samples only (`x` is commented out), so where the samples have size 1 along an axis and the points more, all positions but the first are uninitialised memory; integer samples truncate the result; samples constant along the axis are refused.
* **C69**: transposing a function with bins does not reverse its shape: `shape` lists the axes of bins last whatever the order of the parts.
* **C70**: a percentile along bins stands at the mean of the vertices (edges 0, 1, 4: 5/3), `np.mean`, `np.max`, … at the mean of the middles of the bins (3/2).
* **C71**: `np.copyto` with a mask passes `where.inputs`, which are not boolean, as the mask of the inputs; the `TypeError` is caught and the buffer of the inputs replaced: masked-out points get new inputs with old outputs, inputs stored in another order are transposed, inputs with fewer axes leave more names than dimensions. An exception leaves new inputs with old outputs.
* **C72**: `na.random.choice` leaves uninitialised elements where the choices have size 1 along an axis that is not flattened and `shape_random` is longer along it. The result is always of floating type (complex choices lose their imaginary part), and weights that are all negative are accepted.
* **C73**: `na.despike` passes images in the storage order of the broadcasted shape, not in the order of `axis`, so the models `gaussx` and `gaussy` depend on storage order; `psfk` is passed in its own storage order, not that of the image; kernels along an axis where the images have size 1 are ignored but the first.
* **C75**: `na.numexpr.evaluate` refuses expressions with a variable named `ex`, `order`, `casting`, `sanitize`, `optimization`, `truediv`, `func` or `self` (it passes the variables as keyword arguments) and expressions without variables.
* **C76**: without `s`, `np.fft.irfftn` and `irfft2` pass the size of the spectrum as the size of the result, while numpy and `np.fft.irfft` use 2(m - 1): `irfftn` does not undo `rfftn`. The tests compute the expected result with the same default.
* **C77**: a stratified random space with `centers=False` has strata around the edges, so its first and last samples can be outside [start, stop]; with one point (`num=1`, `endpoint=True`, `centers=False`) or no centers it raises instead of returning an array.
* **C78**: `na.convolve` of uncertain scalars (and of vectors, whose code has the same lines) with `axis` given as a string runs over its characters, so every axis with a longer name raises a KeyError although scalars accept it. A missing axis is a KeyError there and a ValueError for scalars; the mask may supply the axis there, but not for scalars.
* **C79**: a polynomial fit with the constant term alone (`coefficient_names=[""]`, or degree 0) returns the sum of the outputs instead of their mean, because its design vector has no axes; with an explicit axis it raises a ValueError. Without `axis_polynomial`, outputs with an axis that the inputs lack are summed over more points than the terms, so that the coefficients are multiplied by the size of this axis.
* **C80**: the inverse of a matrix with four or more rows is the transpose of the inverse: `matrix_inverse` labels the rows of the inverse "_column" and its columns "_row", but `inverse` reads the entry `_row=i, _column=j` for row i and column j of the result. The products with the matrix are the identity exactly for symmetric matrices (so polynomial fits are not affected); the tests only invert matrices with two rows. Witness: the 4x4 shear with ones on the diagonal and one 1 above it.
* **C81**: `na.jacobian` is declared for plain numbers but raises for every plain number `x` (TypeError, or AttributeError when the value is a vector), and for every scalar array `x` when the value of the function is a plain number (a constant function), although the vector implementation accepts scalar values that are plain numbers.
* **C82**: `np.ndim` and `np.count_nonzero` are in `DEFAULT_FUNCTIONS` of scalar arrays and of vectors but raise TypeError for every argument, because `array_function_default` always passes `axis`, `keepdims` and `out` on, which these two functions do not all accept.
* **C83**: `root_newton` for vectors of four or more components multiplies by the transposed inverse of the Jacobian (see C80), so for a linear function with an invertible matrix it can go round in circles for ever.
* **C84**: `minimum_gradient_descent` is annotated for numbers, quantities and scalar arrays (`InputT`, optimize.py:18), but only vectors are implemented: every guess that is not a vector raises TypeError. The rule of its documentation, x_{k+1} = x_k - α z_k, is not what is computed, whatever z_0: the code subtracts α z_{k+1}.
* **C85**: `np.convolve(a, v)` broadcasts the named shapes of its arguments against each other, so two arrays of different lengths (a signal and a kernel) always raise ValueError, unless one of them has one element.
* **C86**: `np.array_equal`, `np.array_equiv` and `np.allclose` loop over the components of the first vector only. For `CartesianNdVectorArray` a second vector with more components is reported equal, and in the other order a KeyError is raised. `np.array_equal(vector, scalar)` is False, but `np.array_equal(scalar, vector)` raises AttributeError, as does comparing a vector with a plain number.
* **C87**: `np.moveaxis` of a vector renames every component separately. If another component already has the destination axis, the two axes are silently merged: with `x` along `u` and `y` along `w`, `np.moveaxis(v, "u", "w")` turns nine elements into three. The same call on a scalar, or on the broadcast components, raises ValueError.
* **C87** (behaviour, proved as it is): the cumulative functions of vectors raise KeyError for an axis that the vector does not have; scalars raise ValueError.
* **C88**: `np.sort` of a vector repeats a component that has size one along the sorted axis, but `v[np.argsort(v)]` raises IndexError for it: the indices count up to the size of the vector and indexing with a dictionary does not broadcast the components.
* **C88**: `np.unravel_index` of a vector builds its result from the axes of the *indices* instead of those of `shape`, so valid indices raise KeyError whenever `shape` has an axis that the indices do not have, which is the usual case.
**C108** (read, not proved) `array_function_sequence` catches `na.ScalarTypeError`, but the conversion of its arguments raises `UncertainScalarTypeError`, which is not a kind of it: `np.linspace` of an uncertain scalar and a vector raises TypeError at once instead of leaving the call to the vector. The `except` clauses at lines 354, 388 and 437 of `uncertainties_named_array_functions.py` name `uncertainties.ScalarTypeError`, which that module does not define.
**C107** `np.unravel_index` of uncertain scalars gives an empty dictionary for a shape without axes, whatever the positions are; for scalar arrays numpy refuses arrays and positions other than 0 (`C107_no_axes`, an inconsistency that is part of the statement).
**C106** `np.nonzero` of an uncertain scalar without an axis of samples, which the class allows and most other functions accept, is refused whatever its elements are: ValueError if the distribution is an array, TypeError if it is a number (`C106_refuses`, `C106_certain_refuted`).
**C104** `np.percentile` and its relatives accept uncertain percentages, and say so in their annotations, but raise ValueError for all uncertain percentages of an uncertain array: both have the axis of the samples, which the function for scalar arrays takes for a clash (`C104_both_uncertain_refuted`).
**C103** `np.sort` of an uncertain scalar sorts the means of the samples and rearranges every world in the same way: neither the nominal values nor the samples need come out sorted, and `np.argsort` never looks at the nominal values (`C103_worlds_refuted`: nominal values [2, 1] with samples [0, 5] and [3, 0] are left as they are). Uncertain scalars without an axis of samples raise ValueError, although their values can be sorted (`C103_certain_refuted`).
**C102** no defect: `np.take_along_axis` takes the nominal values at the nominal indices and every sample at the indices of that sample, also for a part that does not store the axis.
**C101** no defect: the Fourier transforms broadcast both parts along the transformed axes first, so a constant part is transformed correctly; the samples cannot be transformed nor can an axis be renamed to theirs.
**C100** no defect: joining broadcasts the parts of each array first, so that a part stored without an axis is joined like the others.
**C99** `np.array_equal` and `np.array_equiv` of an uncertain scalar and a scalar array or a number raise AttributeError, while `np.allclose` accepts them. `np.array_equal` is false for uncertain scalars of one shape with the same elements in every world when one stores a distribution that is constant along an axis without that axis: the stored parts are compared, not the broadcast ones.
**C98** `np.cumsum`, `np.cumprod` and `np.nancumsum` of an uncertain scalar along an axis it does not have raise KeyError where those of a scalar array raise ValueError: `shape[_axis]` is looked up without a check. `np.diff` of a scalar array without uncertainty with an uncertain `prepend` or `append` always raises ValueError.
**C97** `np.copyto(dst, src, where=mask)` of uncertain scalars never looks at an uncertain mask: line 499 tests `isinstance(src, ...)` and lines 500-501 take `src.nominal` and `src.distribution` for the mask. With elements that are not booleans numpy refuses such a mask, the `TypeError` is caught and the whole part is overwritten; with a source that is not uncertain the call is declined. A part that is a number is replaced whatever the mask. A distribution that does not fit is refused after the nominal values have been written. `np.clip` of a scalar array without uncertainty by an uncertain bound always raises ValueError.
**C96** `np.moveaxis` of an uncertain scalar checks for a repeated name only inside each part: renaming an axis of the nominal values to the name of an axis that only the distribution has succeeds and merges the two axes. `np.reshape` raises KeyError for every uncertain scalar whose distribution has no samples (the default distribution 0 for example). The line `a.distribution.change_axis_index(...)` in `reshape` throws its result away; the proof shows that this does no harm, since the nominal values are broadcast before and the samples then are the last axis anyway.
**C95** `np.nan_to_num(x, copy=False)` does nothing, without an exception, for a `ScalarArray` that holds a number and for components that are numbers: numpy returns a new value, which is dropped, and `x` still contains NaN. A vector with a component that is not explicit raises only after the components before it have been written.
**C93** `np.percentile` of vectors with a vector `q` does not look at the type of `q` (line 292): a vector of another type is accepted when the names agree and gives `KeyError` otherwise, a vector `q` for a scalar array fails with `AttributeError`, and an axis that `q` shares with another component of `a` is accepted though a scalar `q` with that axis is refused.
**C92** `np.nonzero` of a vector combines the components with the bitwise `&`, so that for integers it misses elements that are nonzero in every component (2 & 1 is 0, and `True & 2` is 0); `a[np.nonzero(m)]` differs from `a[m]` for a mask without axes: the positions are an empty dict, which selects everything.
**C91** `np.copyto` of vectors refuses every mask that is a vector (line 483 compares the abstract type of the mask with its own explicit type), replaces components that are plain numbers even where the mask is false, silently replaces a nested vector of another type (the `TypeError` is caught in 504), and leaves earlier components changed when a later one does not fit. `np.clip` refuses a bound whose axes a component lacks.

Noted while reading, without a theorem: `ScalarArray([1, 2, 3])` with a Python list
is accepted with no axes; `regrid_from_weights` refuses values that have an axis named
like a resampled output axis; `__setitem__` on an array holding a Python number is
lost; `index`, `index_secant` and `matrix_multiply` refer to names that do not exist;
`determinant` of an n-dimensional matrix returns the class `NotImplementedError`;
`interp_linear` with a plain number as index raises `AttributeError`; `pack` drops
imaginary parts; `foo @ LinearTransformation` with an unsupported `foo` gives `None`;
vector `unravel_index` raises `KeyError`.

## Plan per property (as written before the proofs)

| id | model | proof plan |
|----|-------|-----------|
| C01 | `broadcast_shapes` loop over dicts | induction over the argument list; per-axis characterisation of the accumulated dict |
| C02 | `ndarray_aligned`, `__array_ufunc__`, numpy broadcasting | alignment lemma: an aligned array read at the positions of the target axes is the labelled lookup |
| C03 | same + `np.transpose` | corollary of C02 via labelled lookup |
| C04 | an operation language over a pool of arrays | invariant by induction over histories |
| C05, C06 | `_getitem` with numpy basic/advanced indexing | labelled-lookup characterisation |
| C07 | `_getitem` with masks | row-major enumeration of true positions |
| C08 | `__setitem__` as ordered writes through an index view | frame + last-writer lemmas |
| C09, C10 | `broadcast_to`, `_debroadcast` | labelled lookup; constancy argument per axis |
| C11, C12, C13 | `transpose`, `add_axes`, `change_axis_index`, `combine_axes`, `moveaxis` | permutation lemmas; row-major arithmetic; sequential renaming is refuted for exchanges |
| C14 | `array_function_default` | folds over commutative monoids, permutation invariance |
| C15, C16, C18, C19, C39 | per-line functions along an axis | list-level lemmas (argmin, stable sort, prefix sums) lifted to lines |
| C17 | `concatenate`, `stack` | offsets by induction over pieces |
| C20, C21 | inductive type of nested structures | structural induction with a position counter |
| C22, C43 | `ndindex`, `unravel_index` | bijection between row-major positions and indices |
| C23, C24, C40 | exact rational arithmetic | field identities |
| C25, C26 | tree of components | structural induction over nesting |
| C27, C41, C42 | generic field | `field`/`ring` identities plus component-name bookkeeping |
| C28 | inductive type of transformations over an abstract matrix/vector algebra | case analysis, list induction |
| C29, C30 | loop with fuel = max_iterations, arbitrary user function | loop invariants |
| C31 | rankdata on a line: sort, group ids, scatter, gather | counting lemmas over sorted lists |
| C32 | argpercentile on a line | monotone prefix sums; q = 100 expected to be refuted |
| C33 | slices with Python semantics | arithmetic on normalised slices; negative items expected to be refuted |
| C34 | pair of arrays with a sample axis | corollary of C02 |
| C35 | list of types with a subclass relation | stable insertion sort lemmas |
| C36 | seeds over nested components | counting argument; nested case expected to be refuted |
| C37 | bin counts per entry point | arithmetic; histogram/histogramdd dictionary case expected to be refuted |
| C38 | `array_equal` | expected to be refuted in both directions |
| C44 | `where`, `clip`, `copyto` | corollaries of C02/C08 |
| C45 | weights as list of (input, output, weight) | linearity of finite sums |
| C46–C109 | added while modelling: `out`/`where` arguments, vectors, uncertain scalars, percentiles, function arrays | same lemmas as above; witnesses for what is false |

## Checking

`cd rocq && coq_makefile -f _CoqProject -o Makefile && make -j4` builds everything
(under ten minutes on four cores).  The theorems were tested by editing the model in a
scratch copy and rebuilding; every attempt is a line of `seeded/LOG.jsonl`.
