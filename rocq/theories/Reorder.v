(** Model of the array functions that reorganise a [ScalarArray] without
    computing with its elements (named_arrays/_scalars/scalar_array_functions.py). *)
From Coq Require Import String List Arith ZArith Bool Lia.
From Verif Require Import Base Numpy Shapes Scalar.
Import ListNotations.
Open Scope nat_scope.
Open Scope list_scope.

Fixpoint nnodupb (l : list nat) : bool :=
  match l with [] => true | x :: l' => negb (nmem x l') && nnodupb l' end.

(** [np.transpose(a, axes)] with numpy's validation of [axes] (trusted numpy
    behaviour): one entry for each dimension, no repetition. *)
Definition np_transpose {A} (perm : list nat) (a : nd A) : res (nd A) :=
  if (length perm =? ndim a)
     && forallb (fun p => p <? ndim a) perm
     && nnodupb perm
  then Ok (transpose perm a)
  else Err ValueError.

(** [transpose], scalar_array_functions.py:535-550 *)
Definition na_transpose {A} (a : sarr A) (axes : option (list string)) : res (sarr A) :=
  a' <- match axes with Some l => add_axes a l | None => Ok a end ;;
  let axes := match axes with Some l => l | None => rev (s_axes a') end in
  perm <- mapM (fun ax => index_of ax (s_axes a')) axes ;;
  n <- np_transpose perm (s_nd a') ;;
  mk_sarr n axes.

(** [axes[axes.index(src)] = dest] *)
Fixpoint replace_first (src dest : string) (axes : list string) : res (list string) :=
  match axes with
  | [] => Err ValueError
  | ax :: l =>
      if String.eqb src ax then Ok (dest :: l)
      else l' <- replace_first src dest l ;; Ok (ax :: l')
  end.

(** [moveaxis], scalar_array_functions.py:553-577 (a single string is a
    one-element sequence) *)
Definition na_moveaxis {A} (a : sarr A) (source destination : list string) : res (sarr A) :=
  if negb (forallb (fun s => smem s (s_axes a)) source) then Err ValueError
  else
    axes <- foldM (fun axes p => replace_first (fst p) (snd p) axes)
                  (combine source destination) (s_axes a) ;;
    mk_sarr (s_nd a) axes.

(** [np.reshape(a, shape)] with nonnegative sizes *)
Definition np_reshape {A} (a : nd A) (shape : list nat) : res (nd A) :=
  if prod shape =? size a then Ok (reshape shape a) else Err ValueError.

(** [reshape], scalar_array_functions.py:580-585 *)
Definition na_reshape {A} (a : sarr A) (newshape : shape) : res (sarr A) :=
  n <- np_reshape (s_nd a) (dvals newshape) ;;
  mk_sarr n (dkeys newshape).

(** [np.unravel_index(indices, shape)]: every index must be in range
    ([ValueError] otherwise); one array of indices for each dimension.  numpy
    refuses an array of indices for a zero-dimensional shape. *)
Definition np_unravel_index (indices : nd Z) (shape : list nat) : res (list (nd Z)) :=
  if (length shape =? 0) && negb (ndim indices =? 0) then Err ValueError
  else if forallb (fun z => (0 <=? z)%Z && (z <? Z.of_nat (prod shape))%Z) (ravel indices)
  then Ok (map (fun k => mkNd (nshape indices)
                          (fun idx => Z.of_nat (nth k (unravel shape (Z.to_nat (nget indices idx))) 0)))
               (seq 0 (length shape)))
  else Err ValueError.

(** [unravel_index], scalar_array_functions.py:841-851 *)
Definition na_unravel_index (indices : sarr Z) (sh : shape) : res (dict (sarr Z)) :=
  r <- np_unravel_index (s_nd indices) (dvals sh) ;;
  foldM (fun d p => a <- mk_sarr (snd p) (s_axes indices) ;; Ok (dset d (fst p) a))
        (combine (dkeys sh) r) [].

(** [np.array_equal(a1, a2)]: same shape and all elements equal *)
Definition np_array_equal {A} (eqb : A -> A -> bool) (a1 a2 : nd A) : bool :=
  if list_eq_dec Nat.eq_dec (nshape a1) (nshape a2)
  then forallb (fun p => eqb (fst p) (snd p)) (combine (ravel a1) (ravel a2))
  else false.

(** [array_equal], scalar_array_functions.py:854-864 *)
Definition na_array_equal {A} (eqb : A -> A -> bool) (a1 a2 : sarr A) : bool :=
  np_array_equal eqb (s_nd a1) (s_nd a2).

(** [array_equiv], scalar_array_functions.py:867-876: [np.array_equiv] is false
    when the shapes do not broadcast, otherwise it compares all elements of the
    broadcast arrays.  [na.shape_broadcasted] raises first for named shapes. *)
Definition na_array_equiv {A} (eqb : A -> A -> bool) (a1 a2 : sarr A) : res bool :=
  sh <- shape_broadcasted [OpArr a1; OpArr a2] ;;
  n1 <- ndarray_aligned a1 (dkeys sh) ;;
  n2 <- ndarray_aligned a2 (dkeys sh) ;;
  Ok (match bshapes [nshape n1; nshape n2] with
      | None => false
      | Some s => forallb (fun idx => eqb (bget n1 idx) (bget n2 idx)) (ndindex s)
      end).
