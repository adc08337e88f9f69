(** Model of the functions of vectors that act along named axes
    (named_arrays/_vectors/vector_array_functions.py). *)
From Coq Require Import String List Arith ZArith Bool Lia.
From Verif Require Import Base Numpy Shapes Scalar Reorder Elementwise Reduce Along Vector.
Import ListNotations.
Open Scope nat_scope.
Open Scope list_scope.

(** ** Functions of the broadcast components *)

(** [f] applied to the components of [a.broadcasted], _core.py:678-686; a component that
    is a vector is broadcast again by the same function *)
Fixpoint broadcast_rec {A B} (fuel : nat) (f : sarr A -> res (sarr B)) (v : vec A) : res (vec B) :=
  match v with
  | Leaf o => r <- f (normalize o) ;; Ok (Leaf (OpArr r))
  | Node ty _ =>
      match fuel with
      | 0 => Err TypeError            (* not reached *)
      | S fuel =>
          sh <- vec_shape v ;;
          b <- vec_broadcast_to v sh ;;
          match b with
          | Node _ cs => r <- on_components (fun _ x => broadcast_rec fuel f x) cs ;; Ok (Node ty r)
          | Leaf _ => Err TypeError   (* not reached: the result is a vector *)
          end
      end
  end.

(** [transpose], vector_array_functions.py:507-514 *)
Definition vec_transpose {A} (v : vec A) (axes : option (list string)) : res (vec A) :=
  broadcast_rec (depth v) (fun a => na_transpose a axes) v.

(** [reshape], vector_array_functions.py:548-551 *)
Definition vec_reshape {A} (v : vec A) (shape : shape) : res (vec A) :=
  broadcast_rec (depth v) (fun a => na_reshape a shape) v.

(** [repeat], vector_array_functions.py:950-967 *)
Definition vec_repeat {A} (v : vec A) (repeats : operand nat) (axis : string) : res (vec A) :=
  broadcast_rec (depth v) (fun a => na_repeat a repeats axis) v.

(** [diff], vector_array_functions.py:970-1001; [prepend] and [append] are scalars, which
    are given to all components *)
Definition vec_diff {A} (sub : A -> A -> A) (n : nat) (v : vec A) (axis : string)
           (prepend append : option (operand A)) : res (vec A) :=
  broadcast_rec (depth v) (fun a => na_diff sub n a axis prepend append) v.

(** ** Functions along one axis *)

(** [na.broadcast_to(array, {axis: n}, append=True)],
    vector_named_array_functions.py:186-202 *)
Fixpoint vec_append {A} (v : vec A) (sh : shape) : res (vec A) :=
  match v with
  | Leaf o => r <- na_broadcast_to (normalize o) sh true ;; Ok (Leaf (OpArr r))
  | Node ty cs =>
      r <- traverse (fun kv => x <- vec_append (snd kv) sh ;; Ok (fst kv, x)) cs ;;
      Ok (Node ty r)
  end.

(** the components are given the axis and handed over with the components of a second
    argument; [missing] is the exception for an axis that the vector does not have *)
Fixpoint along_rec {A B C} (fuel : nat) (missing : err) (f : sarr A -> operand C -> res (sarr B)) (axis : string)
         (v : vec A) (w : vec C) : res (vec B) :=
  match v with
  | Leaf o =>
      match w with
      | Leaf i => r <- f (normalize o) i ;; Ok (Leaf (OpArr r))
      | Node _ _ => Err TypeError     (* neither the scalar nor the vector implementation accepts *)
      end
  | Node ty _ =>
      match fuel with
      | 0 => Err TypeError            (* not reached *)
      | S fuel =>
          if negb (accepts ty w) then Err TypeError
          else
            sh <- vec_shape v ;;
            match dget sh axis with
            | None => Err missing
            | Some n =>
                b <- vec_append v [(axis, n)] ;;
                match b with
                | Node _ cs =>
                    r <- on_components (fun c x => i <- component c w ;; along_rec fuel missing f axis x i) cs ;;
                    Ok (Node ty r)
                | Leaf _ => Err TypeError   (* not reached *)
                end
            end
      end
  end.

(** [take_along_axis], vector_array_functions.py:701-733 *)
Definition vec_take_along_axis {A} (v : vec A) (indices : vec Z) (axis : string) : res (vec A) :=
  along_rec (depth v) ValueError (fun a i => na_take_along_axis (OpArr a) i axis) axis v indices.

(** [array_function_cumulative_reduce], vector_array_functions.py:216-264, without [out]
    and [dtype]: [shape[_axis]] raises KeyError *)
Definition vec_cumulative {A B} (scan : list A -> B) (include_initial : bool) (v : vec A) (axis : option (list string))
  : res (vec B) :=
  match v with
  | Leaf o => r <- na_cumulative scan include_initial (normalize o) axis None ;; Ok (Leaf (OpArr r))
  | Node _ _ =>
      sh <- vec_shape v ;;
      match match axis with Some l => l | None => dkeys sh end with
      | [ax] => along_rec (depth v) KeyError (fun a _ => na_cumulative scan include_initial a axis None) ax v (Leaf (OpNum tt))
      | _ => Err ValueError
      end
  end.

(** ** Renaming *)

(** [moveaxis], vector_array_functions.py:517-545; the pairs are [zip(source,
    destination)].  numpy's own function leaves a plain number alone when there is no pair. *)
Fixpoint vec_moveaxis_pairs {A} (v : vec A) (pairs : list (string * string)) : res (vec A) :=
  match v with
  | Leaf (OpArr a) => r <- na_moveaxis a (map fst pairs) (map snd pairs) ;; Ok (Leaf (OpArr r))
  | Leaf (OpNum x) => match pairs with [] => Ok (Leaf (OpNum x)) | _ => Err ValueError end
  | Node ty cs =>
      sh <- vec_shape v ;;
      if negb (forallb (fun p => smem (fst p) (dkeys sh)) pairs) then Err ValueError
      else
        r <- traverse (fun kv =>
               shc <- vec_shape (snd kv) ;;
               x <- vec_moveaxis_pairs (snd kv) (filter (fun p => smem (fst p) (dkeys shc)) pairs) ;;
               Ok (fst kv, x)) cs ;;
        Ok (Node ty r)
  end.
Definition vec_moveaxis {A} (v : vec A) (source destination : list string) : res (vec A) :=
  sh <- vec_shape v ;;
  if negb (forallb (fun s => smem s (dkeys sh)) source) then Err ValueError
  else vec_moveaxis_pairs v (combine source destination).
