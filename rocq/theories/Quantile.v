(** Model of percentiles and quantiles along named axes
    (named_arrays/_scalars/scalar_array_functions.py). *)
From Coq Require Import String List Arith ZArith Bool Lia.
From Verif Require Import Base Numpy Shapes Scalar Elementwise Reduce.
Import ListNotations.
Open Scope nat_scope.
Open Scope list_scope.

(** [np.percentile(a, q, axis=axes, keepdims=keepdims, out=out)] and its relatives
    (trusted numpy behaviour): for every element of [q] the reduced elements of [a]
    are combined by [perc]; the dimensions of [q] come first.  [valid] is the range
    of [q].  numpy refuses a [q] of more than two dimensions.  Nothing is said here
    about arrays without elements, where the functions differ, and about an [out] of
    another shape, which numpy may accept by broadcasting; both are errors here and
    excluded by the theorems.  The order in which numpy runs through several axes
    is not modelled: the theorems are about symmetric functions. *)
Definition np_percentile {A Q B} (valid : Q -> bool) (perc : Q -> list A -> B) (a : nd A) (q : nd Q)
           (axes : list nat) (keepdims : bool) (out : option (nd B)) : res (nd B) :=
  if negb (forallb valid (ravel q)) then Err ValueError
  else if 2 <? ndim q then Err ValueError
  else if prod (nshape a) =? 0 then Err ValueError
  else
    r <- np_reduce true (fun l x => perc x l) a axes keepdims None None ;;
    if negb (match out with Some o => idx_eqb (nshape o) (nshape q ++ nshape r) | None => true end)
    then Err ValueError
    else Ok (mkNd (nshape q ++ nshape r)
               (fun idx => nget r (skipn (ndim q) idx) (nget q (firstn (ndim q) idx)))).

(** [array_function_percentile_like], scalar_array_functions.py:301-373 *)
Definition na_percentile {A Q B} (valid : Q -> bool) (perc : Q -> list A -> B) (a : operand A) (q : operand Q)
           (axis : option (list string)) (out : option (sarr B)) (keepdims : bool) : res (sarr B) :=
  let a := normalize a in
  let axis_n := axis_normalized a axis in
  if match axis with
     | Some _ => negb (forallb (fun ax => smem ax (s_axes a)) axis_n)
     | None => false
     end then Err ValueError
  else
    let q := normalize q in
    if existsb (fun ax => smem ax (s_axes q)) (s_axes a) then Err ValueError
    else
      let axes_result := s_axes q ++ (if keepdims then s_axes a
                                      else filter (fun ax => negb (smem ax axis_n)) (s_axes a)) in
      axes <- mapM (fun ax => index_of ax (s_axes a)) axis_n ;;
      o <- match out with
           | Some o => n <- ndarray_aligned o axes_result ;; Ok (Some n)
           | None => Ok None
           end ;;
      r <- np_percentile valid perc (s_nd a) (s_nd q) axes keepdims o ;;
      result <- mk_sarr r axes_result ;;
      match out with
      | Some o => n <- ndarray_aligned result (s_axes o) ;; Ok (mkS n (s_axes o))
      | None => Ok result
      end.
