(** Model of convolutions and of the filters with a moving window, for scalars and
    uncertain scalars. *)
From Coq Require Import String Ascii List Arith ZArith Bool.
From Verif Require Import Base Numpy Shapes Scalar Reorder Elementwise Along Uncertain Hist.
Import ListNotations.
Open Scope nat_scope.
Open Scope list_scope.

(** the multi-indices met when only the positions [ps] of [idx] vary *)
Fixpoint np_fibre (sizes : list nat) (ps : list nat) (idx : list nat) : list (list nat) :=
  match ps with
  | [] => [idx]
  | p :: ps => flat_map (fun i => np_fibre sizes ps (set_nth p i idx)) (seq 0 (nth p sizes 0))
  end.

(** ** Convolution *)

(** one convolution along some axes: the sizes along these axes, the values of the
    array and of the mask in row-major order, the sizes and values of the kernel, and
    the position *)
Definition convolution (A K B : Type) : Type :=
  list nat -> list A -> list bool -> list nat -> list K -> list nat -> B.

(** [ndfilters.convolve(array, kernel, axis, where, mode)] (trusted behaviour of the
    package), for arguments with the same number of dimensions: the dimensions of the
    kernel that are not in [axis] are broadcast against the array and the mask *)
Definition np_convolve {A K B} (conv : convolution A K B) (array : nd A) (kernel : nd K) (axis : list nat)
           (where_ : nd bool) : res (nd B) :=
  match bshapes [nshape array; fold_right (fun p s => set_nth p 1 s) (nshape kernel) axis; nshape where_] with
  | None => Err ValueError
  | Some s =>
      Ok (mkNd s (fun idx =>
        conv (map (fun p => nth p s 0) axis) (map (bget array) (np_fibre s axis idx)) (map (bget where_) (np_fibre s axis idx))
             (map (fun p => nth p (nshape kernel) 0) axis) (map (bget kernel) (np_fibre (nshape kernel) axis idx))
             (map (fun p => nth p idx 0) axis)))
  end.

(** the argument [axis]: [None], a string or a sequence of strings *)
Inductive axis_arg := AxNone | AxName (s : string) | AxNames (l : list string).

(** [convolve], scalar_named_array_functions.py:556-617 *)
Definition na_convolve {A K B} (conv : convolution A K B) (array : operand A) (kernel : operand K) (axis : axis_arg)
           (where_ : operand bool) : res (sarr B) :=
  let array := normalize array in
  let kernel := normalize kernel in
  let where_ := normalize where_ in
  let axis := match axis with AxNone => dkeys (sshape kernel) | AxName s => [s] | AxNames l => l end in
  if negb (forallb (fun ax => smem ax (dkeys (sshape array))) axis) then Err ValueError
  else if negb (forallb (fun ax => smem ax (dkeys (sshape kernel))) axis) then Err ValueError
  else
    sh <- broadcast_shapes [sshape array; orthogonal (sshape kernel) axis; sshape where_] ;;
    let axes := dkeys sh in
    a <- ndarray_aligned array axes ;;
    k <- ndarray_aligned kernel axes ;;
    ps <- mapM (fun ax => index_of ax axes) axis ;;
    w <- ndarray_aligned where_ axes ;;
    r <- np_convolve conv a k ps w ;;
    mk_sarr r axes.

(** ** Uncertain scalars *)

(** [for ax in axis]: the elements of a sequence, but the characters of a string *)
Fixpoint characters (s : string) : list string :=
  match s with EmptyString => [] | String c s => String c EmptyString :: characters s end.

Definition elements (axis : axis_arg) (dflt : list string) : list string :=
  match axis with AxNone => dflt | AxName s => characters s | AxNames l => l end.

(** [{ax: shape[ax] for ax in axis}] *)
Definition sub_shape (sh : shape) (axis : list string) : res shape :=
  l <- mapM (fun ax => match dget sh ax with Some n => Ok (ax, n) | None => Err KeyError end) axis ;;
  Ok (fold_left (fun d kv => dset d (fst kv) (snd kv)) l []).

(** [_normalize], uncertainties.py:56-68, with the check of the constructor *)
Definition u_normalize {A} (x : uop A) : res (unc A) :=
  match x with Uncertain u => Ok u | Certain o => mk_unc o o end.

(** [convolve], uncertainties_named_array_functions.py:424-499 *)
Definition u_convolve {A K B} (conv : convolution A K B) (array : uop A) (kernel : uop K) (axis : axis_arg)
           (where_ : uop bool) : res (unc B) :=
  array <- u_normalize array ;;
  kernel <- u_normalize kernel ;;
  where_ <- u_normalize where_ ;;
  shape_kernel <- u_shape kernel ;;
  let axis := match axis with AxNone => AxNames (dkeys shape_kernel) | _ => axis end in
  shape_kernel_parallel <- sub_shape shape_kernel (elements axis []) ;;
  sa <- u_shape array ;;
  sw <- u_shape where_ ;;
  sh <- broadcast_shapes [sa; sw] ;;
  shape_parallel <- sub_shape sh (elements axis []) ;;
  an <- na_broadcast_to (normalize (u_nominal array)) shape_parallel true ;;
  kn <- na_broadcast_to (normalize (u_nominal kernel)) shape_kernel_parallel true ;;
  wn <- na_broadcast_to (normalize (u_nominal where_)) shape_parallel true ;;
  n <- na_convolve conv (OpArr an) (OpArr kn) axis (OpArr wn) ;;
  ad <- na_broadcast_to (normalize (u_distribution array)) shape_parallel true ;;
  kd <- na_broadcast_to (normalize (u_distribution kernel)) shape_kernel_parallel true ;;
  wd <- na_broadcast_to (normalize (u_distribution where_)) shape_parallel true ;;
  d <- na_convolve conv (OpArr ad) (OpArr kd) axis (OpArr wd) ;;
  mk_unc (OpArr n) (OpArr d).

(** ** Windows *)

(** one filter along some axes: the sizes along these axes, the size of the window,
    the values of the array and of the mask, and the position *)
Definition window (A B : Type) : Type := list nat -> list nat -> list A -> list bool -> list nat -> B.

(** [ndfilters.mean_filter(array, size, axis, where)] and its variants (trusted
    behaviour of the package), for an array and a mask of the same shape *)
Definition np_ndfilter {A B} (flt : window A B) (array : nd A) (size : list nat) (axis : list nat) (where_ : nd bool) : nd B :=
  let s := nshape array in
  mkNd s (fun idx =>
    flt (map (fun p => nth p s 0) axis) size (map (nget array) (np_fibre s axis idx)) (map (nget where_) (np_fibre s axis idx))
        (map (fun p => nth p idx 0) axis)).

(** [ndfilter], scalar_named_array_functions.py:1839-1876 *)
Definition na_ndfilter {A B} (flt : window A B) (array : operand A) (size : dict nat) (where_ : operand bool) : res (sarr B) :=
  let array := normalize array in
  let where_ := normalize where_ in
  sh <- broadcast_shapes [sshape array; sshape where_] ;;
  let axes := dkeys sh in
  if negb (forallb (fun ax => smem ax axes) (dkeys size)) then Err ValueError
  else
    array <- na_broadcast_to array sh false ;;
    where_ <- na_broadcast_to where_ sh false ;;
    ps <- mapM (fun ax => index_of ax axes) (dkeys size) ;;
    mk_sarr (np_ndfilter flt (s_nd array) (dvals size) ps (s_nd where_)) axes.
