(** Model of [np.nonzero] for scalars and vectors
    (named_arrays/_scalars/scalar_array_functions.py, named_arrays/_vectors/vector_array_functions.py). *)
From Coq Require Import String List Arith ZArith Bool Lia.
From Verif Require Import Base Numpy Shapes Scalar Elementwise Vector.
Import ListNotations.
Open Scope nat_scope.
Open Scope list_scope.

(** [np.nonzero] of an ndarray (the call in scalar_array_functions.py:918): one array of positions
    for each dimension, in row-major order of the elements that are true. *)
Definition np_nonzero {A} (truth : A -> bool) (x : nd A) : list (nd Z) :=
  let l := filter (fun i => truth (nget x i)) (ndindex (nshape x)) in
  map (fun r => mkNd [length l] (fun i => Z.of_nat (nth r (nth (nth 0 i 0) l []) 0))) (seq 0 (ndim x)).

(** [nonzero], scalar_array_functions.py:910-919 *)
Definition na_nonzero {A} (truth : A -> bool) (a : sarr A) : res (dict (sarr Z)) :=
  match sshape a with
  | [] => Ok []
  | _ =>
      name <- flatten_axes (s_axes a) ;;
      mapM (fun kx => b <- mk_sarr (snd kx) [name] ;; Ok (fst kx, b))
           (combine (s_axes a) (np_nonzero truth (s_nd a)))
  end.

(** the operator [&] of two numbers *)
Definition bit_and (l : list Z) : Z :=
  match l with [x; y] => Z.land x y | _ => 0%Z end.

(** [nonzero], vector_array_functions.py:841-850, for a vector whose components are scalars with
    elements that are booleans (as 0 and 1) or integers; [True] is 1.  When all the components are
    plain numbers numpy's own function is called with a number, which it refuses.  Components of
    other types (floats, vectors) are not modelled. *)
Definition vec_nonzero (cs : dict (operand Z)) : res (dict (sarr Z)) :=
  acc <- foldM (fun acc kv => op_ufunc bit_and [acc; snd kv]) cs (OpNum 1%Z) ;;
  match acc with
  | OpArr a => na_nonzero (fun x => negb (x =? 0)%Z) a
  | OpNum _ => Err ValueError
  end.
