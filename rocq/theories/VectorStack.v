(** Model of joining vectors (named_arrays/_vectors/vector_array_functions.py). *)
From Coq Require Import String List Arith ZArith Bool Lia.
From Verif Require Import Base Numpy Shapes Scalar Reorder Elementwise Reduce Along Vector VectorAxes.
Import ListNotations.
Open Scope nat_scope.
Open Scope list_scope.

(** [a.broadcast_to({axis: a.shape[axis]}, append=True)] for every array, after checking that
    all of them have the axis, vector_array_functions.py:584-593 *)
Definition with_axis_all {A} (vs : list (vec A)) (axis : string) : res (list (vec A)) :=
  shs <- mapM vec_shape vs ;;
  if existsb (fun sh => negb (smem axis (dkeys sh))) shs then Err ValueError
  else mapM (fun v => sh <- vec_shape v ;;
                      match dget sh axis with
                      | Some n => vec_append v [(axis, n)]
                      | None => Err KeyError      (* not reached *)
                      end) vs.

(** [array_function_stack_like], vector_array_functions.py:554-618, without [out], [dtype] and
    [casting].  The prototype is the first vector; a scalar stands for all components
    ([from_scalar], vectors.py:551-564), so the names of the components of the first array are
    those of the prototype.  When there is no vector the function for scalars is called. *)
Fixpoint join_rec {A} (fuel : nat) (concatenate : bool) (vs : list (vec A)) (axis : string) : res (vec A) :=
  match first_node vs with
  | None =>
      r <- (if concatenate then na_concatenate (leaves_of vs) axis None else na_stack (leaves_of vs) axis None) ;;
      Ok (Leaf (OpArr r))
  | Some (ty, cs) =>
      match fuel with
      | 0 => Err TypeError            (* not reached, see [vec_join] *)
      | S fuel =>
          if negb (forallb (accepts ty) vs) then Err TypeError    (* NotImplemented *)
          else
            vs' <- (if concatenate then with_axis_all vs axis else Ok vs) ;;
            r <- on_components (fun c _ => xs <- mapM (component c) vs' ;; join_rec fuel concatenate xs axis) cs ;;
            Ok (Node ty r)
      end
  end.
Definition vec_join {A} (concatenate : bool) (vs : list (vec A)) (axis : string) : res (vec A) :=
  join_rec (list_max (map depth vs)) concatenate vs axis.
Definition vec_concatenate {A} (vs : list (vec A)) (axis : string) : res (vec A) := vec_join true vs axis.
Definition vec_stack {A} (vs : list (vec A)) (axis : string) : res (vec A) := vec_join false vs axis.
