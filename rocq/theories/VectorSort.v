(** Model of sorting vectors and of the index dictionaries of vectors
    (named_arrays/_vectors/vector_array_functions.py). *)
From Coq Require Import String List Arith ZArith Bool Lia.
From Verif Require Import Base Numpy Shapes Scalar Reorder Elementwise Reduce Along Sorting Vector.
Import ListNotations.
Open Scope nat_scope.
Open Scope list_scope.

(** the sizes of the axes that are sorted, [shape_base], vector_array_functions.py:645, 684 *)
Definition shape_base (sh : shape) (axis : list string) : shape :=
  dict_of (flat_map (fun ax => match dget sh ax with Some n => [(ax, n)] | None => [] end) axis).

(** [component.broadcast_to(na.broadcast_shapes(component.shape, shape_base))],
    vector_array_functions.py:651, 690 *)
Definition with_base {A} (x : vec A) (shx base : shape) : res (vec A) :=
  shb <- broadcast_shapes [shx; base] ;; vec_broadcast_to x shb.

(** [any(ax in axis for ax in component.axes)], vector_array_functions.py:650, 689 *)
Definition touches (shx : shape) (axis : list string) : bool :=
  existsb (fun ax => smem ax axis) (dkeys shx).

(** [sort], vector_array_functions.py:621-657, for the components of a vector [sort] of
    scalars or again this function *)
Fixpoint sort_rec {A} (fuel : nat) (sort1 : list A -> list A) (v : vec A) (axis : option (list string)) : res (vec A) :=
  match v with
  | Leaf o => r <- na_sort sort1 (normalize o) axis ;; Ok (Leaf (OpArr r))
  | Node ty cs =>
      match fuel with
      | 0 => Err TypeError            (* not reached *)
      | S fuel =>
          sh <- vec_shape v ;;
          match match axis with Some l => l | None => dkeys sh end with
          | [] => match axis with None => Ok v | Some _ => Err ValueError end
          | l =>
              if negb (forallb (fun ax => smem ax (dkeys sh)) l) then Err ValueError
              else
                r <- on_components (fun _ x =>
                       shx <- vec_shape x ;;
                       if touches shx l
                       then b <- with_base x shx (shape_base sh l) ;; sort_rec fuel sort1 b (Some l)
                       else Ok x) cs ;;
                Ok (Node ty r)
          end
      end
  end.
Definition vec_sort {A} (sort1 : list A -> list A) (v : vec A) (axis : option (list string)) : res (vec A) :=
  sort_rec (depth v) sort1 v axis.

(** the dictionary of vectors of indices made from the dictionaries of the components; a
    component without an entry gets [None], vector_array_functions.py:686, 694-695 *)
Definition gather (ty : string) (axes : list string) (rs : dict (dict (tree item))) : dict (tree item) :=
  map (fun ax => (ax, Node ty (map (fun kv => (fst kv, match dget (snd kv) ax with Some t => t | None => Leaf ItNone end)) rs))) axes.

(** [argsort], vector_array_functions.py:660-697 *)
Fixpoint argsort_rec {A} (fuel : nat) (argsort1 : list A -> list nat) (v : vec A) (axis : option (list string))
  : res (dict (tree item)) :=
  match v with
  | Leaf o => d <- na_argsort argsort1 (normalize o) axis ;; Ok (map (fun kv => (fst kv, Leaf (ItArr (snd kv)))) d)
  | Node ty cs =>
      match fuel with
      | 0 => Err TypeError            (* not reached *)
      | S fuel =>
          sh <- vec_shape v ;;
          match match axis with Some l => l | None => dkeys sh end with
          | [] => match axis with None => Ok [] | Some _ => Err ValueError end
          | l =>
              if negb (forallb (fun ax => smem ax (dkeys sh)) l) then Err ValueError
              else
                rs <- on_components (fun _ x =>
                        shx <- vec_shape x ;;
                        if touches shx l
                        then b <- with_base x shx (shape_base sh l) ;; argsort_rec fuel argsort1 b (Some l)
                        else Ok []) cs ;;
                Ok (gather ty (dkeys sh) rs)
          end
      end
  end.
Definition vec_argsort {A} (argsort1 : list A -> list nat) (v : vec A) (axis : option (list string)) : res (dict (tree item)) :=
  argsort_rec (depth v) argsort1 v axis.

(** [unravel_index], vector_array_functions.py:736-755, for a vector whose components are
    scalars: the dictionary [result] starts with the axes of [indices], so an axis of
    [shape] that [indices] does not have raises KeyError.  A component that is a plain
    number reaches numpy's own function, which refuses a dict as a shape (TypeError).
    An axis of [indices] that is not in [shape] keeps its empty dictionary, and
    [from_components] then gives the default components of the class; here they are
    left out. *)
Definition unravel_component (axes : list string) (o : operand Z) (sh : shape) : res (dict (sarr Z)) :=
  match o with
  | OpArr a =>
      d <- na_unravel_index a sh ;;
      if forallb (fun ax => smem ax axes) (dkeys d) then Ok d else Err KeyError
  | OpNum _ => Err TypeError
  end.
(** a vector whose components are scalars *)
Definition as_leaves (cs : dict (operand Z)) : list (string * vec Z) := map (fun kv => (fst kv, Leaf (snd kv))) cs.
Definition vec_unravel_index (ty : string) (cs : dict (operand Z)) (sh : shape) : res (dict (vec Z)) :=
  s <- vec_shape (Node ty (as_leaves cs)) ;;
  rs <- traverse (fun kv => d <- unravel_component (dkeys s) (snd kv) sh ;; Ok (fst kv, d)) cs ;;
  Ok (map (fun ax => (ax, Node ty (flat_map (fun kv => match dget (snd kv) ax with
                                                      | Some a => [(fst kv, Leaf (OpArr a))]
                                                      | None => []
                                                      end) rs))) (dkeys s)).
