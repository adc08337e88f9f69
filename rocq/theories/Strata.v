(** Model of uniform random samples and of stratified random spaces over exact
    rational numbers. *)
From Coq Require Import String List Arith ZArith QArith Qcanon Bool.
From Verif Require Import Base Numpy Shapes Scalar Elementwise Derived Interp Random.
Import ListNotations.
Open Scope nat_scope.
Open Scope list_scope.

(** [np.random.uniform(low, high, size)] and the method of a generator (trusted numpy
    behaviour): [u] is the sequence of numbers at least 0 and below 1 that belongs to
    a seed and a size, one for every multi-index *)
Definition np_uniform (u : option Z -> list nat -> list nat -> Qc) (seed : option Z) (sizes : list nat)
           (args : list (nd Qc)) (idx : list nat) : Qc :=
  match args with
  | [low; high] => (bget low idx + (bget high idx - bget low idx) * u seed sizes idx)%Qc
  | _ => qz 0
  end.

(** [uniform], random.py:26-67, on [random], scalar_named_array_functions.py:620-677;
    also [explicit] of a uniform random sample, _core.py:1864-1875 *)
Definition na_uniform (u : option Z -> list nat -> list nat -> Qc) (low high : operand Qc) (shape_random : shape)
           (seed : option Z) : res (sarr Qc) :=
  r_scalar (np_uniform u) shape_random seed [low; high].

(** [-x] *)
Definition op_neg (x : operand Qc) : res (operand Qc) :=
  match x with
  | OpNum a => Ok (OpNum (- a)%Qc)
  | _ => r <- array_ufunc (un Qcopp (qz 0)) [x] ;; Ok (OpArr r)
  end.

(** [strata], _core.py:2104-2113 *)
Definition na_strata (start stop : operand Qc) (axis : string) (num : Z) (endpoint centers : bool) : res (sarr Qc) :=
  na_linspace start stop axis num endpoint centers.

(** [explicit] of a stratified random space, _core.py:2088-2101; a step that is a
    division by zero gives inf or nan for arrays, which [uniform] refuses like the
    division here *)
Definition na_stratified (u : option Z -> list nat -> list nat -> Qc) (start stop : operand Qc) (axis : string)
           (num : Z) (endpoint centers : bool) (seed : option Z) : res (sarr Qc) :=
  result <- na_strata start stop axis num endpoint centers ;;
  step_size <- na_step start stop num endpoint centers ;;
  low <- op_neg step_size ;;
  low <- op_bin Qcdiv low (OpNum (qz 2)) ;;
  high <- op_bin Qcdiv step_size (OpNum (qz 2)) ;;
  delta <- na_uniform u low high (sshape result) seed ;;
  array_ufunc (bin Qcplus (qz 0)) [OpArr result; OpArr delta].
