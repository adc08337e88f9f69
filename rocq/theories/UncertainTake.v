(** Model of [np.take_along_axis] with uncertain scalars
    (named_arrays/_scalars/uncertainties/uncertainties_array_functions.py). *)
From Coq Require Import String List Arith ZArith Bool.
From Verif Require Import Base Numpy Shapes Scalar Elementwise Along Uncertain UncertainChoice.
Import ListNotations.
Open Scope nat_scope.
Open Scope list_scope.

(** [take_along_axis], uncertainties_array_functions.py:708-733; the broadcast along the axis is
    that of uncertainties_named_array_functions.py:123-144 *)
Definition u_take_along_axis {A} (arr : uop A) (indices : uop Z) (axis : string) : res (unc A) :=
  arr <- as_unc arr ;;
  indices <- as_unc indices ;;
  shape <- u_shape arr ;;
  match dget shape axis with
  | None => Err ValueError
  | Some num =>
      shape_distribution <- u_shape_distribution arr ;;
      shape_distribution <- broadcast_shapes [[(axis, num)]; shape_distribution] ;;
      n <- na_broadcast_to (normalize (u_nominal arr)) [(axis, num)] true ;;
      d <- na_broadcast_to (normalize (u_distribution arr)) shape_distribution true ;;
      arr <- mk_unc (OpArr n) (OpArr d) ;;
      rn <- na_take_along_axis (u_nominal arr) (u_nominal indices) axis ;;
      rd <- na_take_along_axis (u_distribution arr) (u_distribution indices) axis ;;
      mk_unc (OpArr rn) (OpArr rd)
  end.
