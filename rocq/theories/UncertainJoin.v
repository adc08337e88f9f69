(** Model of [np.stack] and [np.concatenate] with uncertain scalars
    (named_arrays/_scalars/uncertainties/uncertainties_array_functions.py). *)
From Coq Require Import String List Arith ZArith Bool.
From Verif Require Import Base Numpy Shapes Scalar Elementwise Along Uncertain.
Import ListNotations.
Open Scope nat_scope.
Open Scope list_scope.

(** [array.broadcasted], uncertainties_array_functions.py:627; a scalar array is its own
    broadcast and numbers are left alone *)
Definition spread_out {A} (x : uop A) : res (uop A) :=
  match x with
  | Uncertain u => u <- u_broadcasted u ;; Ok (Uncertain u)
  | Certain o => Ok (Certain o)
  end.

(** [array_function_stack_like], uncertainties_array_functions.py:612-662, without [out],
    [dtype] and [casting]; at least one of the arrays is uncertain or [func] is that of
    scalar arrays *)
Definition u_stack_like {A} (func : list (operand A) -> res (sarr A)) (arrays : list (uop A)) : res (unc A) :=
  arrays <- mapM spread_out arrays ;;
  n <- func (map nominal_of arrays) ;;
  d <- func (map distribution_of arrays) ;;
  mk_unc (OpArr n) (OpArr d).

Definition u_stack {A} (arrays : list (uop A)) (axis : string) : res (unc A) :=
  u_stack_like (fun l => na_stack l axis None) arrays.

Definition u_concatenate {A} (arrays : list (uop A)) (axis : string) : res (unc A) :=
  u_stack_like (fun l => na_concatenate l axis None) arrays.
