(** Model of [np.emath]: [sqrt], [log], [power] and their relatives that turn to complex numbers
    (named_arrays/_scalars/scalar_array_functions.py and
    named_arrays/_scalars/uncertainties/uncertainties_array_functions.py). *)
From Coq Require Import String List Arith ZArith Bool.
From Verif Require Import Base Numpy Shapes Scalar Elementwise Uncertain UncertainChoice.
Import ListNotations.
Open Scope nat_scope.
Open Scope list_scope.

(** [array_function_emath], scalar_array_functions.py:466-485; arguments by position and by name are
    one list.  [f] is the value of the function as a complex number. *)
Definition na_emath {A B} (f : list A -> B) (args : list (operand A)) : res (sarr B) :=
  let args := map normalize args in
  shape <- shape_broadcasted (map OpArr args) ;;
  args <- mapM (fun a => ndarray_aligned a (dkeys shape)) args ;;
  r <- ufunc f args ;;
  mk_sarr r (dkeys shape).

(** numpy itself handles a call in which all arguments are numbers *)
Definition op_emath {A B} (f : list A -> B) (args : list (operand A)) : res (operand B) :=
  if forallb (fun o => match o with OpNum _ => true | OpArr _ => false end) args
  then Ok (OpNum (f (flat_map (fun o => match o with OpNum x => [x] | OpArr _ => [] end) args)))
  else r <- na_emath f args ;; Ok (OpArr r).

(** [array_function_emath], uncertainties_array_functions.py:443-463 *)
Definition u_emath {A B} (f : list A -> B) (args : list (uop A)) : res (unc B) :=
  args <- mapM as_unc args ;;
  n <- op_emath f (map u_nominal args) ;;
  d <- op_emath f (map u_distribution args) ;;
  mk_unc n d.
