(** Model of [na.interp] for scalar arrays
    (named_arrays/_scalars/scalar_named_array_functions.py). *)
From Coq Require Import String List Arith ZArith Bool.
From Verif Require Import Base Numpy Shapes Scalar Elementwise Derived Hist.
Import ListNotations.
Open Scope nat_scope.
Open Scope list_scope.

(** [np.interp(x, xp, fp, left, right, period)] (trusted numpy behaviour): the
    sample points and values are one-dimensional, of the same length and not
    empty, and the period is not zero ([zero]).  [itp] is the value at one point. *)
Definition np_interp {A B C} (zero : A -> bool)
           (itp : list A -> list B -> option C -> option C -> option A -> A -> C)
           (x xp : nd A) (fp : nd B) (left right : option C) (period : option A) : res (nd C) :=
  match nshape xp, nshape fp with
  | [n], [m] =>
      if match period with Some p => zero p | None => false end then Err ValueError
      else if n =? 0 then Err ValueError
      else if negb (n =? m) then Err ValueError
      else Ok (mkNd (nshape x) (fun idx => itp (ravel xp) (ravel fp) left right period (nget x idx)))
  | _, _ => Err ValueError
  end.

(** [na.broadcast_to(a, na.broadcast_shapes(a.shape, shape))] *)
Definition spread_over {A} (a : sarr A) (sh : shape) : res (sarr A) :=
  t <- broadcast_shapes [sshape a; sh] ;; na_broadcast_to a t false.

(** [na.broadcast_to(left, shape) if left is not None else left] *)
Definition opt_spread {A} (a : option (sarr A)) (sh : shape) : res (option (sarr A)) :=
  match a with Some a => b <- na_broadcast_to a sh false ;; Ok (Some b) | None => Ok None end.

(** [left[index].ndarray if left is not None else left], a value without axes *)
Definition opt_part {A} (a : option (sarr A)) (i : dict nat) : res (option A) :=
  match a with
  | Some a => b <- getitem a (int_items i) ;; Ok (Some (nget (s_nd b) []))
  | None => Ok None
  end.

Definition opt_list {A} (a : option A) : list A := match a with Some a => [a] | None => [] end.

(** the body of the loop, 267-286; the result has the data type of [fp], into
    which the assignment converts ([cast]) *)
Definition interp_step {A B C} (zero : A -> bool)
           (itp : list A -> list B -> option C -> option C -> option A -> A -> C) (cast : C -> B)
           (x xp : sarr A) (fp : sarr B) (left right : option (sarr C)) (period : option (sarr A))
           (result : sarr B) (i : dict nat) : res (sarr B) :=
  x_i <- getitem x (int_items i) ;;
  xp_i <- getitem xp (int_items i) ;;
  fp_i <- getitem fp (int_items i) ;;
  l <- opt_part left i ;;
  r <- opt_part right i ;;
  p <- opt_part period i ;;
  sh <- broadcast_shapes [sshape xp_i; sshape fp_i] ;;
  xp_n <- ndarray_aligned xp_i (dkeys sh) ;;
  fp_n <- ndarray_aligned fp_i (dkeys sh) ;;
  v <- np_interp zero itp (s_nd x_i) xp_n fp_n l r p ;;
  a <- mk_sarr (mkNd (nshape v) (fun idx => cast (nget v idx))) (s_axes x_i) ;;
  setitem result (int_items i) (OpArr a).

(** [interp], 220-286; [junk] is what [np.empty_like] happens to contain *)
Definition na_interp {A B C} (zero : A -> bool)
           (itp : list A -> list B -> option C -> option C -> option A -> A -> C) (cast : C -> B) (junk : B)
           (x xp : operand A) (fp : operand B) (axis : option string)
           (left right : option (operand C)) (period : option (operand A)) : res (sarr B) :=
  let x := normalize x in
  let xp := normalize xp in
  let fp := normalize fp in
  let left := option_map normalize left in
  let right := option_map normalize right in
  let period := option_map normalize period in
  axis <- match axis with
          | Some ax => Ok ax
          | None => match s_axes xp with [ax] => Ok ax | _ => Err ValueError end
          end ;;
  xp0 <- getitem xp [(axis, ItInt 0%Z)] ;;
  fp0 <- getitem fp [(axis, ItInt 0%Z)] ;;
  sh <- broadcast_shapes ([sshape xp0; sshape fp0] ++ map sshape (opt_list left) ++ map sshape (opt_list right)
                          ++ map sshape (opt_list period)) ;;
  x <- spread_over x sh ;;
  xp <- spread_over xp sh ;;
  fp <- spread_over fp sh ;;
  left <- opt_spread left sh ;;
  right <- opt_spread right sh ;;
  period <- opt_spread period sh ;;
  foldM (interp_step zero itp cast x xp fp left right period) (na_ndindex sh [])
        (mkS (mkNd (nshape (s_nd x)) (fun _ => junk)) (s_axes x)).
