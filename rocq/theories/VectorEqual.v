(** Comparisons of whole vectors: [array_equal], [array_equiv] and [allclose],
    vector_array_functions.py:758-838. *)
From Coq Require Import String List Arith ZArith Bool Lia.
From Verif Require Import Base Numpy Shapes Scalar Reorder Elementwise Vector.
Import ListNotations.
Open Scope nat_scope.
Open Scope list_scope.

Section Loops.
Context {X : Type} (f : X -> res bool).

(** [result = result and ...]: nothing is evaluated after the first [False],
    vector_array_functions.py:771-777, 794-799 *)
Fixpoint and_loop (l : list X) : res bool :=
  match l with
  | [] => Ok true
  | x :: l' => b <- f x ;; if b : bool then and_loop l' else Ok false
  end.

(** [result = result * ...]: everything is evaluated, vector_array_functions.py:828-836 *)
Fixpoint times_loop (l : list X) : res bool :=
  match l with
  | [] => Ok true
  | x :: l' => b <- f x ;; r <- times_loop l' ;; Ok (b && r)
  end.
End Loops.

Section Equal.
Context {A : Type}.

(** the comparison of two scalars or numbers, and the exception that the scalar
    implementation raises for an array and a vector, in this order *)
Variables (leaf : operand A -> operand A -> res bool) (mixed : sarr A -> vec A -> err).

(** [array_equal] and [array_equiv], vector_array_functions.py:758-801.  Types are
    compared by [type_abstract], which numbers do not have.  A scalar array that comes
    first is asked first. *)
Fixpoint vec_equal (u w : vec A) : res bool :=
  match u, w with
  | Leaf x, Leaf y => leaf x y
  | Leaf (OpArr a), Node _ _ => Err (mixed a w)
  | Leaf (OpNum _), Node _ _ => Err AttributeError
  | Node _ _, Leaf (OpArr _) => Ok false
  | Node _ _, Leaf (OpNum _) => Err AttributeError
  | Node ty cs, Node ty' cs' =>
      if String.eqb ty ty'
      then and_loop (fun kv => match dget cs' (fst kv) with
                               | Some y => vec_equal (snd kv) y
                               | None => Err KeyError
                               end) cs
      else Ok false
  end.

(** [np.allclose], vector_array_functions.py:804-838.  A scalar array that comes first is
    asked first: it broadcasts the shapes, scalar_array_functions.py:888, and hands over. *)
Fixpoint close_left (x : operand A) (w : vec A) : res bool :=
  match w with
  | Leaf y => leaf x y
  | Node _ cs =>
      _ <- match x with
           | OpArr a => s <- vec_shape w ;; broadcast_shapes [sshape a; s]
           | OpNum _ => Ok []
           end ;;
      times_loop (fun kv => close_left x (snd kv)) cs
  end.
Fixpoint close_right (u : vec A) (y : operand A) : res bool :=
  match u with
  | Leaf x => leaf x y
  | Node _ cs => times_loop (fun kv => close_right (snd kv) y) cs
  end.
Fixpoint vec_close (u w : vec A) : res bool :=
  match u with
  | Leaf x => close_left x w
  | Node ty cs =>
      match w with
      | Leaf y => close_right u y
      | Node ty' cs' =>
          if String.eqb ty ty'
          then times_loop (fun kv => match dget cs' (fst kv) with
                                     | Some y => vec_close (snd kv) y
                                     | None => Err KeyError
                                     end) cs
          else Err TypeError
      end
  end.
End Equal.

Section Comparisons.
Context {A : Type} (eqb : A -> A -> bool).

(** [np.array_equal]: the scalar part is scalar_array_functions.py:854-864; a vector has
    no [ndarray] *)
Definition vec_array_equal (u w : vec A) : res bool :=
  vec_equal (fun x y => Ok (na_array_equal eqb (normalize x) (normalize y)))
            (fun _ _ => AttributeError) u w.

(** [np.array_equiv]: the scalar part is scalar_array_functions.py:867-876; the shapes are
    broadcast before the vector is asked for [ndarray_aligned] *)
Definition vec_array_equiv (u w : vec A) : res bool :=
  vec_equal (fun x y => na_array_equiv eqb (normalize x) (normalize y))
            (fun a w => match (s <- vec_shape w ;; broadcast_shapes [sshape a; s]) with
                        | Err e => e
                        | Ok _ => AttributeError
                        end) u w.

(** [np.allclose]: the scalar part is scalar_array_functions.py:879-907; [eqb] says
    whether two numbers are close *)
Definition vec_allclose (u w : vec A) : res bool :=
  vec_close (fun x y => na_array_equiv eqb (normalize x) (normalize y)) u w.
End Comparisons.
