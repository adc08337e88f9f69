(** Model of choosing elements of vectors: [np.where], [np.clip] and [np.copyto]
    (named_arrays/_vectors/vector_array_functions.py). *)
From Coq Require Import String List Arith ZArith Bool Lia.
From Verif Require Import Base Numpy Shapes Scalar Elementwise Vector Matrix.
Import ListNotations.
Open Scope nat_scope.
Open Scope list_scope.

(** The common scheme of [where], vector_array_functions.py:859-880, and [clip], 921-946: the
    prototype is the first vector among the arguments ([_prototype], vectors.py:39-44), every
    argument must be of its type or a scalar ([_normalize], vectors.py:47-64), and the function is
    called for the component of each argument.  The components of the first argument, over which
    the loop runs, have the names of those of the prototype.  [leaf] is the function for
    scalars. *)
Fixpoint zip_rec {L M} (fuel : nat) (leaf : list L -> res M) (vs : list (tree L)) : res (tree M) :=
  match first_node vs with
  | None => r <- leaf (leaves_of vs) ;; Ok (Leaf r)
  | Some (ty, cs) =>
      match fuel with
      | 0 => Err TypeError            (* not reached, see [zip_trees] *)
      | S fuel =>
          if negb (forallb (accepts ty) vs) then Err TypeError    (* NotImplemented *)
          else
            r <- on_components (fun c _ => xs <- mapM (component c) vs ;; zip_rec fuel leaf xs) cs ;;
            Ok (Node ty r)
      end
  end.
Definition zip_trees {L M} (leaf : list L -> res M) (vs : list (tree L)) : res (tree M) :=
  zip_rec (list_max (map depth vs)) leaf vs.

(** an argument that is not a vector: a condition, a value, or [None] *)
Inductive arg (A : Type) := AFlag (o : operand bool) | AVal (o : operand A) | ANone.
Arguments AFlag {A}. Arguments AVal {A}. Arguments ANone {A}.

(** [np.where] for scalars: numpy's own for plain numbers, otherwise
    scalar_array_functions.py:922-944 *)
Definition where_leaf {A} (args : list (arg A)) : res (operand A) :=
  match args with
  | [AFlag (OpNum c); AVal (OpNum x); AVal (OpNum y)] => Ok (OpNum (if c then x else y))
  | [AFlag c; AVal x; AVal y] => r <- na_where c x y ;; Ok (OpArr r)
  | _ => Err TypeError                (* not reached, see [vec_where] *)
  end.

(** [where], vector_array_functions.py:853-880 *)
Definition vec_where {A} (condition : vec bool) (x y : vec A) : res (vec A) :=
  zip_trees where_leaf [map_tree AFlag condition; map_tree AVal x; map_tree AVal y].

Section Clip.
Context {A : Type} (minimum maximum : A -> A -> A).

Definition bound_of (b : arg A) : option (operand A) := match b with AVal o => Some o | _ => None end.

(** [np.clip] for scalars: numpy's own when all arguments are plain numbers or [None], otherwise
    scalar_array_functions.py:999-1043 *)
Definition clip_leaf (args : list (arg A)) : res (operand A) :=
  match args with
  | [AVal a; lo; hi] =>
      match a, bound_of lo, bound_of hi with
      | OpNum x, None, None => Ok (OpNum x)
      | OpNum x, Some (OpNum l), None => Ok (OpNum (maximum x l))
      | OpNum x, None, Some (OpNum h) => Ok (OpNum (minimum x h))
      | OpNum x, Some (OpNum l), Some (OpNum h) => Ok (OpNum (minimum (maximum x l) h))
      | a, lo, hi => r <- na_clip minimum maximum a lo hi None ;; Ok (OpArr r)
      end
  | _ => Err TypeError                (* not reached, see [vec_clip] *)
  end.

Definition bound_tree (b : option (vec A)) : tree (arg A) :=
  match b with Some v => map_tree AVal v | None => Leaf ANone end.

(** [clip], vector_array_functions.py:915-955, without [out] *)
Definition vec_clip (a : vec A) (a_min a_max : option (vec A)) : res (vec A) :=
  zip_trees clip_leaf [map_tree AVal a; bound_tree a_min; bound_tree a_max].
End Clip.

(** [copyto], vector_array_functions.py:457-505: [dst] afterwards, and the exception if there is
    one.  A scalar array holds an ndarray; a plain number has no storage, so [np.copyto] raises
    [TypeError] for it (the function for scalars, scalar_array_functions.py:503-504, declines).

    The check of the mask in 483 compares the abstract type of the mask with its explicit type;
    they are never equal, so a mask that is a vector is always declined.

    A [TypeError] of a component is caught and the component is replaced (504-505); any other
    exception leaves the components before it changed.  A declined call raises before anything is
    written. *)
Fixpoint vec_copyto {A} (dst src : vec A) (where_ : vec bool) : vec A * option err :=
  match dst with
  | Leaf (OpNum _) => (dst, Some TypeError)
  | Leaf (OpArr a) =>
      match src, where_ with
      | Leaf s, Leaf w =>
          match na_copyto true a s w with
          | Ok r => (Leaf (OpArr r), None)
          | Err e => (dst, Some e)
          end
      | _, _ => (dst, Some TypeError)
      end
  | Node ty cs =>
      match where_ with
      | Node _ _ => (dst, Some TypeError)
      | Leaf _ =>
          if negb (accepts ty src) then (dst, Some TypeError)
          else
            let fix each (cs : list (string * vec A)) : list (string * vec A) * option err :=
              match cs with
              | [] => ([], None)
              | (c, x) :: cs' =>
                  match component c src with
                  | Err e => (cs, Some e)
                  | Ok s =>
                      match vec_copyto x s where_ with
                      | (x', None) => let (r, e) := each cs' in ((c, x') :: r, e)
                      | (_, Some TypeError) => let (r, e) := each cs' in ((c, s) :: r, e)
                      | (x', Some e) => ((c, x') :: cs', Some e)
                      end
                  end
              end in
            let (r, e) := each cs in (Node ty r, e)
      end
  end.
