(** Model of the Fourier transforms of vectors
    (named_arrays/_vectors/vector_array_functions.py). *)
From Coq Require Import String List Arith ZArith Bool.
From Verif Require Import Base Numpy Shapes Scalar Elementwise Vector Fourier.
Import ListNotations.
Open Scope nat_scope.
Open Scope list_scope.

(** The common scheme of [array_function_fft_like], vector_array_functions.py:363-393, and
    [array_function_fftn_like], 396-424: the axes [axes] must be axes of the vector; every component
    is broadcast along them, to the sizes that they have in the vector, and transformed by the same
    function, which is [leaf] for scalar arrays. *)
Fixpoint along_rec {A} (fuel : nat) (axes : list string) (leaf : sarr A -> res (sarr A)) (v : vec A) : res (vec A) :=
  match v with
  | Leaf (OpArr a) => r <- leaf a ;; Ok (Leaf (OpArr r))
  | Leaf (OpNum _) => Err TypeError     (* a plain number, not reached from a vector: [na.broadcast_to] gives arrays *)
  | Node ty cs =>
      match fuel with
      | 0 => Err TypeError              (* not reached, see [vec_fft] *)
      | S fuel =>
          sh <- vec_shape v ;;
          if negb (forallb (fun ax => smem ax (dkeys sh)) axes) then Err ValueError
          else
            let base := dict_of (flat_map (fun ax => match dget sh ax with Some n => [(ax, n)] | None => [] end) axes) in
            r <- on_components (fun _ x =>
                   shx <- vec_shape x ;;
                   shc <- broadcast_shapes [shx; base] ;;
                   x <- vec_broadcast_to x shc ;;
                   along_rec fuel axes leaf x) cs ;;
            Ok (Node ty r)
      end
  end.

(** [array_function_fft_like], vector_array_functions.py:363-393; for the scalar components
    scalar_array_functions.py:416-432 *)
Definition vec_fft {A} (zero : A) (t : transform A) (v : vec A) (axis : string * string) (n : option nat) : res (vec A) :=
  along_rec (depth v) [fst axis] (fun a => na_fft zero t a axis n) v.

(** [array_function_fftn_like], vector_array_functions.py:396-424; for the scalar components
    scalar_array_functions.py:435-463 *)
Definition vec_fftn {A} (zero : A) (w : ntransform A) (v : vec A) (axes : dict string) (s : option (dict nat)) : res (vec A) :=
  along_rec (depth v) (dkeys axes) (fun a => na_fftn zero w a axes s) v.
