(** Model of random samples with a seed: scalars, uncertain scalars and vectors. *)
From Coq Require Import String List Arith ZArith Bool.
From Verif Require Import Base Numpy Shapes Scalar Elementwise Vector.
Import ListNotations.
Open Scope nat_scope.
Open Scope list_scope.

(** ** Scalars *)

(** [random], scalar_named_array_functions.py:620-677.  [generate] is the numpy
    generator started from the seed ([None] is the global generator): given the
    sizes and the aligned parameters it yields the value at every multi-index.
    Units are not modelled. *)
Definition r_scalar {A R} (generate : option Z -> list nat -> list (nd A) -> list nat -> R) (shape_random : shape)
           (seed : option Z) (args : list (operand A)) : res (sarr R) :=
  shape_base <- shape_broadcasted args ;;
  sh <- broadcast_shapes [shape_base; shape_random] ;;
  args <- mapM (fun o => ndarray_aligned (normalize o) (dkeys sh)) args ;;
  mk_sarr (mkNd (dvals sh) (generate seed (dvals sh) args)) (dkeys sh).

(** ** Vectors *)

(** the parameters of one component: of a scalar, or of the two parts of an
    uncertain scalar *)
Inductive rleaf (A : Type) : Type :=
| RScalar (a : A)
| RUncertain (nominal distribution : A).
Arguments RScalar {A}. Arguments RUncertain {A}.

Definition shift (seed : option Z) (i : nat) : option Z :=
  match seed with Some s => Some (s + Z.of_nat i)%Z | None => None end.

Section Random.
  Context {A B : Type} (sample : option Z -> A -> res B).

  (** [random], uncertainties_named_array_functions.py:502-535 *)
  Definition r_leaf (seed : option Z) (l : rleaf A) : res (rleaf B) :=
    match l with
    | RScalar a => b <- sample seed a ;; Ok (RScalar b)
    | RUncertain n d =>
        n <- sample seed n ;;
        d <- sample (shift seed 1) d ;;
        Ok (RUncertain n d)
    end.

  (** [random], vector_named_array_functions.py:391-425, with the arguments
      already distributed over the components; [func] dispatches on the type of
      the component, which may be a vector again *)
  Fixpoint r_vector (seed : option Z) (t : tree (rleaf A)) : res (tree (rleaf B)) :=
    match t with
    | Leaf l => r <- r_leaf seed l ;; Ok (Leaf r)
    | Node ty cs =>
        rs <- (fix go (i : nat) (cs : list (string * tree (rleaf A))) : res (list (string * tree (rleaf B))) :=
                 match cs with
                 | [] => Ok []
                 | (c, t) :: cs =>
                     r <- r_vector (shift seed i) t ;;
                     rs <- go (S i) cs ;;
                     Ok ((c, r) :: rs)
                 end) 0 cs ;;
        Ok (Node ty rs)
    end.
End Random.
