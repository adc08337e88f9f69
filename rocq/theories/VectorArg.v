(** Model of [np.argmin] and [np.argmax] of vectors
    (named_arrays/_vectors/vector_array_functions.py). *)
From Coq Require Import String List Arith ZArith Bool Lia.
From Verif Require Import Base Numpy Shapes Scalar Reorder Elementwise Reduce Along Sorting Vector VectorSort.
Import ListNotations.
Open Scope nat_scope.
Open Scope list_scope.

(** [axis_c], the reduced axes that a component has, vector_array_functions.py:340-341 *)
Definition own_axes (axis : list string) (shx : shape) : list string :=
  filter (fun ax => smem ax (dkeys shx)) axis.

(** [array_function_arg_reduce], vector_array_functions.py:319-360, with the axes given; for a
    component that is a scalar array, [array_function_arg_reduce] of
    scalar_array_functions.py:376-413.  The axes of the result are collected in a [set]
    (line 350), so their order is not determined: [arrange] lists the set of the
    elements of a list in some order. *)
Fixpoint arg_rec {A} (arrange : list string -> list string) (pick : list A -> nat) (v : vec A) (axis : list string)
  : res (dict (tree item)) :=
  match v with
  | Leaf o => d <- na_arg_reduce pick (normalize o) (Some axis) ;; Ok (map (fun kv => (fst kv, Leaf (ItArr (snd kv)))) d)
  | Node ty cs =>
      sh <- vec_shape v ;;
      if negb (forallb (fun ax => smem ax (dkeys sh)) axis) then Err ValueError
      else
        rs <- on_components (fun _ x =>
                shx <- vec_shape x ;;
                match own_axes axis shx with
                | [] => Ok []
                | axis_c => arg_rec arrange pick x axis_c
                end) cs ;;
        Ok (gather ty (arrange (flat_map (fun kv => dkeys (snd kv)) rs)) rs)
  end.

(** without [axis], all the axes of the vector ([na.axis_normalized]); a vector without axes
    is refused, vector_array_functions.py:333-335 *)
Definition vec_arg_reduce {A} (arrange : list string -> list string) (pick : list A -> nat) (v : vec A) (axis : option (list string))
  : res (dict (tree item)) :=
  match axis with
  | Some l => arg_rec arrange pick v l
  | None =>
      sh <- vec_shape v ;;
      match sh with [] => Err ValueError | _ => arg_rec arrange pick v (dkeys sh) end
  end.
