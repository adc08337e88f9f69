(** Model of percentiles and quantiles of uncertain scalars
    (named_arrays/_scalars/uncertainties/uncertainties_array_functions.py). *)
From Coq Require Import String List Arith ZArith Bool.
From Verif Require Import Base Numpy Shapes Scalar Elementwise Along Quantile Vector Uncertain UncertainChoice.
Import ListNotations.
Open Scope nat_scope.
Open Scope list_scope.

(** [array_function_percentile_like], uncertainties_array_functions.py:242-336, without [out];
    [valid] and [perc] are those of [na_percentile].  [axis_normalized], _core.py:282-303, gives
    the axes of the array for [None]. *)
Definition u_percentile {A Q B} (valid : Q -> bool) (perc : Q -> list A -> B) (a : uop A) (q : uop Q)
           (axis : option (list string)) (keepdims : bool) : res (unc B) :=
  a <- as_unc a ;;
  shape_a <- u_shape a ;;
  let axis_n := match axis with Some l => l | None => dkeys shape_a end in
  if match axis with
     | Some _ => negb (forallb (fun ax => smem ax (dkeys shape_a)) axis_n)
     | None => false
     end then Err ValueError
  else
    let shape_base := dict_of (flat_map (fun ax => match dget shape_a ax with Some n => [(ax, n)] | None => [] end) axis_n) in
    shn <- broadcast_shapes [sshape (normalize (u_nominal a)); shape_base] ;;
    nominal <- na_broadcast_to (normalize (u_nominal a)) shn false ;;
    n <- na_percentile valid perc (OpArr nominal) (nominal_of q) (Some axis_n) None keepdims ;;
    shd <- broadcast_shapes [sshape (normalize (u_distribution a)); shape_base] ;;
    distribution <- na_broadcast_to (normalize (u_distribution a)) shd false ;;
    d <- na_percentile valid perc (OpArr distribution) (distribution_of q) (Some axis_n) None keepdims ;;
    mk_unc (OpArr n) (OpArr d).
