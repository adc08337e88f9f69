(** Model of uncertain scalars (named_arrays/_scalars/uncertainties): elementwise
    operations, [where], indexing with a dict, broadcasting and reductions.  The
    two parts are scalar arrays or plain numbers. *)
From Coq Require Import String List Arith ZArith Bool.
From Verif Require Import Base Numpy Shapes Scalar Elementwise Reduce Vector.
Import ListNotations.
Open Scope nat_scope.
Open Scope list_scope.

(** [UncertainScalarArray], uncertainties.py:604-613 *)
Record unc (A : Type) := mkU { u_nominal : operand A; u_distribution : operand A }.
Arguments mkU {A}. Arguments u_nominal {A}. Arguments u_distribution {A}.

(** [axis_distribution], uncertainties.py:147 *)
Definition axis_distribution : string := "_distribution".

(** the constructor with its check, uncertainties.py:615-621 *)
Definition mk_unc {A} (n d : operand A) : res (unc A) :=
  if dmem (match n with OpArr a => sshape a | OpNum _ => [] end) axis_distribution then Err ValueError else Ok (mkU n d).

(** an argument of an operation: uncertain, a scalar array or a number *)
Inductive uop (A : Type) : Type :=
| Uncertain (u : unc A)
| Certain (o : operand A).
Arguments Uncertain {A}. Arguments Certain {A}.

(** the split of the arguments, uncertainties.py:441-454 *)
Definition nominal_of {A} (x : uop A) : operand A := match x with Uncertain u => u_nominal u | Certain o => o end.
Definition distribution_of {A} (x : uop A) : operand A := match x with Uncertain u => u_distribution u | Certain o => o end.

(** [__array_ufunc__], uncertainties.py:424-523, for the method [__call__] without
    [out] and [where]; one function for each output *)
Definition u_ufunc {A B} (fs : list (list A -> B)) (inputs : list (uop A)) : res (list (unc B)) :=
  ns <- mapM (fun f => op_ufunc f (map nominal_of inputs)) fs ;;
  ds <- mapM (fun f => op_ufunc f (map distribution_of inputs)) fs ;;
  mapM (fun p => mk_unc (fst p) (snd p)) (combine ns ds).

(** [where], uncertainties_array_functions.py:898-922 *)
Definition u_where {A} (condition : uop bool) (x y : uop A) : res (unc A) :=
  n <- na_where (nominal_of condition) (nominal_of x) (nominal_of y) ;;
  d <- na_where (distribution_of condition) (distribution_of x) (distribution_of y) ;;
  mk_unc (OpArr n) (OpArr d).

(** [shape_distribution], uncertainties.py:178-180, and [shape],
    uncertainties.py:662-667 *)
Definition u_shape_distribution {A} (u : unc A) : res shape := shape_broadcasted [u_nominal u; u_distribution u].
Definition u_shape {A} (u : unc A) : res shape := sh <- u_shape_distribution u ;; Ok (ddel sh axis_distribution).

(** [broadcast_to], uncertainties_named_array_functions.py:123-144 *)
Definition u_broadcast_to {A} (u : unc A) (sh : shape) (append : bool) : res (unc A) :=
  sd <- u_shape_distribution u ;;
  shape_distribution <- broadcast_shapes [sh; sd] ;;
  n <- na_broadcast_to (normalize (u_nominal u)) sh append ;;
  d <- na_broadcast_to (normalize (u_distribution u)) shape_distribution append ;;
  mk_unc (OpArr n) (OpArr d).

(** [broadcasted], _core.py:679-686 *)
Definition u_broadcasted {A} (u : unc A) : res (unc A) := sh <- u_shape u ;; u_broadcast_to u sh false.

(** [array_function_default], uncertainties_array_functions.py:115-179, without
    [out] and [dtype] *)
Definition u_reduce {A B} (identity : bool) (f : list A -> B) (u : unc A) (axis : option (list string))
           (keepdims : bool) (w : option (uop bool)) : res (unc B) :=
  u <- u_broadcasted u ;;
  sh <- u_shape u ;;
  let axis := Some (match axis with Some l => l | None => dkeys sh end) in
  n <- na_reduce identity f (normalize (u_nominal u)) axis keepdims (option_map nominal_of w) None ;;
  d <- na_reduce identity f (normalize (u_distribution u)) axis keepdims (option_map distribution_of w) None ;;
  mk_unc (OpArr n) (OpArr d).

(** values of a dict that indexes an uncertain array *)
Inductive uitem : Type :=
| Plain (i : item)
| Index (u : unc Z).

(** the items for the two parts, uncertainties.py:335-355; [None] is not
    implemented, which ends in the ValueError of [__getitem__], _core.py:1052-1073.
    The parts of an index are made arrays by [__getitem__] of scalar arrays. *)
Definition u_item (i : uitem) : res (item * item) :=
  match i with
  | Index u => Ok (ItArr (normalize (u_nominal u)), ItArr (normalize (u_distribution u)))
  | Plain ItNone => Err ValueError
  | Plain i => Ok (i, i)
  end.

(** [_getitem] with a dict, uncertainties.py:292-363 *)
Definition u_getitem {A} (u : unc A) (it : dict uitem) : res (unc A) :=
  let nominal := normalize (u_nominal u) in
  let distribution := normalize (u_distribution u) in
  items <- mapM (fun kv => q <- u_item (snd kv) ;; Ok (fst kv, q)) it ;;
  let item_nominal := filter (fun kv => smem (fst kv) (s_axes nominal)) (map (fun kq => (fst kq, fst (snd kq))) items) in
  let item_distribution :=
    filter (fun kv => smem (fst kv) (s_axes distribution)) (map (fun kq => (fst kq, snd (snd kq))) items) in
  n <- getitem nominal item_nominal ;;
  d <- getitem distribution item_distribution ;;
  mk_unc (OpArr n) (OpArr d).
