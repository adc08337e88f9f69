(** Model of [na.despike] for scalar arrays
    (named_arrays/_scalars/scalar_named_array_functions.py). *)
From Coq Require Import String List Arith ZArith Bool.
From Verif Require Import Base Numpy Shapes Scalar Elementwise Derived Hist InterpAxis.
Import ListNotations.
Open Scope nat_scope.
Open Scope list_scope.

(** two-dimensional data: the numbers of rows and columns, and the rows one after
    the other *)
Definition image (A : Type) : Type := nat * nat * list A.

Definition as_image {A} (a : nd A) : res (image A) :=
  match nshape a with [m; n] => Ok (m, n, ravel a) | _ => Err ValueError end.

Definition opt_image {A} (a : option (nd A)) : res (option (image A)) :=
  match a with Some a => x <- as_image a ;; Ok (Some x) | None => Ok None end.

(** [astroscrappy.detect_cosmics] (not modelled): the image, the bad pixels, the
    background, the variance and the kernel give the cleaned image; it is refused
    unless everything is two-dimensional.  The other keywords are part of [detect]. *)
Definition detector (A P : Type) : Type :=
  image A -> option (image bool) -> option (image A) -> option (image A) -> option (image P) -> nat -> nat -> A.

(** [inmask[index].ndarray if inmask is not None else inmask] *)
Definition opt_item {A} (a : option (sarr A)) (i : dict nat) : res (option (nd A)) :=
  match a with Some a => x <- getitem a (int_items i) ;; Ok (Some (s_nd x)) | None => Ok None end.

(** the body of the loop, 2052-2077; [result[index].value.ndarray[:] = ...] writes
    through a view, like the assignment to [result[index]] *)
Definition despike_step {A P} (detect : detector A P) (array : sarr A) (inmask : option (sarr bool))
           (inbkg invar : option (sarr A)) (psfk : option (sarr P)) (result : sarr A) (i : dict nat) : res (sarr A) :=
  a <- getitem array (int_items i) ;;
  m <- opt_item inmask i ;;
  b <- opt_item inbkg i ;;
  v <- opt_item invar i ;;
  k <- opt_item psfk i ;;
  a' <- as_image (s_nd a) ;;
  m' <- opt_image m ;;
  b' <- opt_image b ;;
  v' <- opt_image v ;;
  k' <- opt_image k ;;
  r <- mk_sarr (mkNd (nshape (s_nd a)) (fun idx => detect a' m' b' v' k' (nth 0 idx 0) (nth 1 idx 0))) (s_axes a) ;;
  setitem result (int_items i) (OpArr r).

(** [~where] *)
Definition inverted (w : sarr bool) : sarr bool := mkS (mkNd (nshape (s_nd w)) (fun idx => negb (nget (s_nd w) idx))) (s_axes w).

(** [despike], 1999-2079 *)
Definition na_despike {A P} (detect : detector A P) (array : operand A) (axis : list string)
           (where_ : option (operand bool)) (inbkg invar : option (operand A)) (psfk : option (operand P)) : res (sarr A) :=
  let array := normalize array in
  let where_ := option_map normalize where_ in
  let inbkg := option_map normalize inbkg in
  let invar := option_map normalize invar in
  let psfk := option_map normalize psfk in
  sh <- broadcast_shapes (sshape array :: map sshape (opt_list where_) ++ map sshape (opt_list inbkg) ++ map sshape (opt_list invar)) ;;
  array <- na_broadcast_to array sh false ;;
  where_ <- opt_spread where_ sh ;;
  inbkg <- opt_spread inbkg sh ;;
  invar <- opt_spread invar sh ;;
  psfk <- match psfk with
          | Some psfk => shape_psfk <- broadcast_shapes [orthogonal sh axis; sshape psfk] ;;
                         b <- na_broadcast_to psfk shape_psfk false ;; Ok (Some b)
          | None => Ok None
          end ;;
  foldM (despike_step detect array (option_map inverted where_) inbkg invar psfk) (na_ndindex sh axis) array.
