(** Model of the reductions of vectors
    (named_arrays/_vectors/vector_array_functions.py). *)
From Coq Require Import String List Arith ZArith Bool Lia.
From Verif Require Import Base Numpy Shapes Scalar Elementwise Reduce Vector.
Import ListNotations.
Open Scope nat_scope.
Open Scope list_scope.

(** [na.shape_broadcasted(a, where)], _core.py:206-216 *)
Definition shape_with {A} (v : vec A) (where_ : option (vec bool)) : res shape :=
  sh <- vec_shape v ;;
  match where_ with
  | None => broadcast_shapes [sh]
  | Some w => shw <- vec_shape w ;; broadcast_shapes [sh; shw]
  end.

(** [where_c] after [components_where[c]] and [broadcast_to],
    vector_array_functions.py:183, 198-202; a plain number is passed as it is *)
Definition where_component (where_ : option (vec bool)) (c : string) : res (option (vec bool)) :=
  match where_ with
  | None => Ok None
  | Some w => x <- component c w ;; Ok (Some x)
  end.
Definition where_shape (where_ : option (vec bool)) : res shape :=
  match where_ with None => Ok [] | Some w => vec_shape w end.
Definition where_broadcast (where_ : option (vec bool)) (sh : shape) : res (option (vec bool)) :=
  match where_ with
  | Some (Leaf (OpNum b)) => Ok where_
  | Some w => x <- vec_broadcast_to w sh ;; Ok (Some x)
  | None => Ok None
  end.

(** [array_function_default], vector_array_functions.py:156-213, without [dtype],
    [out] and [initial].  A component that is a scalar array or a number is reduced
    by [array_function_default] of scalar_array_functions.py:179-242, which declines
    a vector of masks. *)
Fixpoint vec_reduce_rec {A B} (fuel : nat) (identity : bool) (f : list A -> B) (v : vec A)
         (axis : option (list string)) (keepdims : bool) (where_ : option (vec bool)) : res (vec B) :=
  match v with
  | Leaf o =>
      match where_ with
      | None => r <- na_reduce identity f (normalize o) axis keepdims None None ;; Ok (Leaf (OpArr r))
      | Some (Leaf m) => r <- na_reduce identity f (normalize o) axis keepdims (Some m) None ;; Ok (Leaf (OpArr r))
      | Some (Node _ _) => Err TypeError
      end
  | Node ty cs =>
      match fuel with
      | 0 => Err TypeError            (* not reached, see [vec_reduce] *)
      | S fuel =>
          sh <- shape_with v where_ ;;
          let axis_n := match axis with None => dkeys sh | Some l => l end in
          if match axis with
             | Some _ => negb (forallb (fun ax => smem ax (dkeys sh)) axis_n)
             | None => false
             end then Err ValueError
          else
            let base := dict_of (flat_map (fun ax => match dget sh ax with Some n => [(ax, n)] | None => [] end) axis_n) in
            r <- on_components (fun c x =>
                   w <- where_component where_ c ;;
                   shx <- vec_shape x ;;
                   shw <- where_shape w ;;
                   shc <- broadcast_shapes [shx; shw; base] ;;
                   w <- where_broadcast w shc ;;
                   x <- vec_broadcast_to x shc ;;
                   vec_reduce_rec fuel identity f x axis keepdims w) cs ;;
            Ok (Node ty r)
      end
  end.

Definition vec_reduce {A B} (identity : bool) (f : list A -> B) (v : vec A)
           (axis : option (list string)) (keepdims : bool) (where_ : option (vec bool)) : res (vec B) :=
  vec_reduce_rec (depth v) identity f v axis keepdims where_.

(** ** Truth values *)

(** [bool(v)], vectors.py:362-368, and [__bool__] of scalars.py:497-498: only an
    array with one element has a truth value *)
Definition op_truth (o : operand bool) : res bool :=
  match ravel (s_nd (normalize o)) with [b] => Ok b | _ => Err ValueError end.
Fixpoint vec_truth (v : vec bool) : res bool :=
  match v with
  | Leaf o => op_truth o
  | Node _ cs => l <- traverse (fun kv => vec_truth (snd kv)) cs ;; Ok (forallb (fun b => b) l)
  end.

(** [np.all(v)] as the condition of an [if] *)
Definition vec_all (v : vec bool) : res bool :=
  r <- vec_reduce true (forallb (fun b => b)) v None false None ;; vec_truth r.

(** ** The functions by name *)

(** the arguments by keyword of a call: those that [array_function_default] of
    vectors and of scalar arrays pass on, lines 185-208 and
    scalar_array_functions.py:212-233; [given] lists [dtype], [initial] and
    [where] when they are given *)
Definition keywords_passed (given : list string) : list string := ["axis"; "keepdims"; "out"]%string ++ given.

(** the functions of [DEFAULT_FUNCTIONS], vector_array_functions.py:24-46 and
    scalar_array_functions.py:34-56, with the keywords of their signatures (trusted
    numpy behaviour) *)
Definition default_functions : list (string * list string) :=
  ([("ndim", []);
    ("min", ["axis"; "out"; "keepdims"; "initial"; "where"]);
    ("nanmin", ["axis"; "out"; "keepdims"; "initial"; "where"]);
    ("max", ["axis"; "out"; "keepdims"; "initial"; "where"]);
    ("nanmax", ["axis"; "out"; "keepdims"; "initial"; "where"]);
    ("sum", ["axis"; "dtype"; "out"; "keepdims"; "initial"; "where"]);
    ("nansum", ["axis"; "dtype"; "out"; "keepdims"; "initial"; "where"]);
    ("prod", ["axis"; "dtype"; "out"; "keepdims"; "initial"; "where"]);
    ("nanprod", ["axis"; "dtype"; "out"; "keepdims"; "initial"; "where"]);
    ("mean", ["axis"; "dtype"; "out"; "keepdims"; "where"]);
    ("nanmean", ["axis"; "dtype"; "out"; "keepdims"; "where"]);
    ("std", ["axis"; "dtype"; "out"; "ddof"; "keepdims"; "where"; "mean"; "correction"]);
    ("nanstd", ["axis"; "dtype"; "out"; "ddof"; "keepdims"; "where"; "mean"; "correction"]);
    ("var", ["axis"; "dtype"; "out"; "ddof"; "keepdims"; "where"; "mean"; "correction"]);
    ("nanvar", ["axis"; "dtype"; "out"; "ddof"; "keepdims"; "where"; "mean"; "correction"]);
    ("median", ["axis"; "out"; "overwrite_input"; "keepdims"]);
    ("nanmedian", ["axis"; "out"; "overwrite_input"; "keepdims"]);
    ("all", ["axis"; "out"; "keepdims"; "where"]);
    ("any", ["axis"; "out"; "keepdims"; "where"]);
    ("ptp", ["axis"; "out"; "keepdims"]);
    ("count_nonzero", ["axis"; "keepdims"])])%string.

(** python binds the arguments before anything else: an unknown keyword raises
    TypeError *)
Definition call_default {R} (name : string) (given : list string) (body : res R) : res R :=
  match dget default_functions name with
  | None => Err TypeError
  | Some sig => if forallb (fun k => smem k sig) (keywords_passed given) then body else Err TypeError
  end.
