(** Model of [np.nan_to_num] for scalars, uncertain scalars and vectors, with and without a copy
    (named_arrays/_scalars/scalar_array_functions.py, uncertainties/uncertainties_array_functions.py,
    named_arrays/_vectors/vector_array_functions.py). *)
From Coq Require Import String List Arith ZArith Bool.
From Verif Require Import Base Numpy Shapes Scalar Vector History.
Import ListNotations.
Open Scope nat_scope.
Open Scope list_scope.

(** What is not a vector or an uncertain array: a [ScalarArray] whose [ndarray] is an array, a
    [ScalarArray] whose [ndarray] is a number (scalars.py:874-880), a number, or an array of the
    given elements that is not explicit, such as [ScalarLinearSpace]. *)
Inductive held (A : Type) : Type :=
| HArr (a : sarr A)
| HBare (x : A)
| HNum (x : A)
| HImplicit (a : sarr A).
Arguments HArr {A}. Arguments HBare {A}. Arguments HNum {A}. Arguments HImplicit {A}.

Section NanToNum.
Context {A : Type} (f : A -> A).     (* the replacement of one element, with the given nan, posinf and neginf *)

(** how the vectors and uncertain arrays of a type behave: those that are not explicit have an
    explicit type, and an exception for writing to them *)
Record class : Type := mkClass { explicit : string -> string; refusal : string -> option err }.
Context (k : class).

(** [copy=True] for scalars, scalar_array_functions.py:947-967 (numpy's own for numbers) *)
Definition leaf_nan (l : held A) : held A :=
  match l with
  | HArr a => HArr (smap f a)
  | HBare x => HBare (f x)
  | HNum x => HNum (f x)
  | HImplicit a => HArr (smap f a)
  end.

(** [copy=True]: vectors, vector_array_functions.py:883-912, and uncertain arrays, which are trees
    with the components nominal and distribution, uncertainties_array_functions.py:925-943 *)
Fixpoint nan_copy (v : tree (held A)) : tree (held A) :=
  match v with
  | Leaf l => Leaf (leaf_nan l)
  | Node ty cs => Node (explicit k ty) (map (fun kv => (fst kv, nan_copy (snd kv))) cs)
  end.

(** [copy=False] for scalars: the array afterwards and the exception.  [np.nan_to_num] of a number
    cannot write to it, and its result is dropped (scalar_array_functions.py:959, 967). *)
Definition leaf_nan_inplace (l : held A) : held A * option err :=
  match l with
  | HArr a => (HArr (smap f a), None)
  | HBare x => (HBare x, None)
  | HNum x => (HNum x, None)
  | HImplicit a => (HImplicit a, Some ValueError)
  end.

(** [copy=False]: the arguments are as above; the results for the components are dropped and an
    exception leaves the components before it changed *)
Fixpoint nan_inplace (v : tree (held A)) : tree (held A) * option err :=
  match v with
  | Leaf l => let (r, e) := leaf_nan_inplace l in (Leaf r, e)
  | Node ty cs =>
      match refusal k ty with
      | Some e => (v, Some e)
      | None =>
          let fix each (cs : list (string * tree (held A))) : list (string * tree (held A)) * option err :=
            match cs with
            | [] => ([], None)
            | (c, x) :: cs' =>
                match nan_inplace x with
                | (x', None) => let (r, e) := each cs' in ((c, x') :: r, e)
                | (x', Some e) => ((c, x') :: cs', Some e)
                end
            end in
          let (r, e) := each cs in (Node ty r, e)
      end
  end.
End NanToNum.
