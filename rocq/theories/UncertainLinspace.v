(** Model of [np.linspace] for uncertain scalars
    (named_arrays/_scalars/uncertainties/uncertainties_array_functions.py). *)
From Coq Require Import String List Arith ZArith QArith Qcanon Bool.
From Verif Require Import Base Numpy Shapes Scalar Elementwise Interp Uncertain UncertainChoice.
Import ListNotations.
Open Scope nat_scope.
Open Scope list_scope.

(** [array_function_sequence], uncertainties_array_functions.py:79-112, for [np.linspace] without [dtype] *)
Definition u_linspace (start stop : uop Qc) (axis : string) (num : Z) (endpoint : bool) : res (unc Qc) :=
  start <- as_unc start ;;
  stop <- as_unc stop ;;
  n <- sequence_linspace (u_nominal start) (u_nominal stop) axis num endpoint ;;
  d <- sequence_linspace (u_distribution start) (u_distribution stop) axis num endpoint ;;
  mk_unc (OpArr n) (OpArr d).
