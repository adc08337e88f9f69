(** Model of the elementwise array functions of [ScalarArray]: the ufunc
    protocol with [out] and [where], [np.where], [np.clip] and [np.copyto]. *)
From Coq Require Import String List Arith ZArith Bool Lia.
From Verif Require Import Base Numpy Shapes Scalar.
Import ListNotations.
Open Scope nat_scope.
Open Scope list_scope.

(** ** Ufuncs with [out] and [where] *)

Definition olist {A} (o : option A) : list A := match o with Some x => [x] | None => [] end.

(** A numpy ufunc with one function for each output.  The shapes of the inputs,
    of the mask and of the given outputs are broadcast together, and every given
    output must already have the resulting shape (trusted numpy behaviour).
    Where the mask is false a given output keeps its element and a new output
    has an arbitrary element, [uninit]. *)
Definition np_ufunc_out {A B} (uninit : list nat -> B) (fs : list (list A -> B))
           (ins : list (nd A)) (mask : option (nd bool)) (outs : list (option (nd B)))
  : res (list (nd B)) :=
  match bshapes (map nshape ins ++ map nshape (olist mask)
                 ++ map nshape (flat_map olist outs)) with
  | None => Err ValueError
  | Some s =>
      if forallb (fun o => idx_eqb (nshape o) s) (flat_map olist outs)
      then Ok (map (fun p =>
             mkNd s (fun idx =>
               if match mask with Some m => bget m idx | None => true end
               then fst p (map (fun a => bget a idx) ins)
               else match snd p with Some o => nget o idx | None => uninit idx end))
             (combine fs outs))
      else Err ValueError
  end.

(** [__array_ufunc__], scalars.py:527-610, for the method [__call__].
    [fs] has one function for each output and [outs] one entry for each output
    ([None] when not given).  An [out] array that holds a Python number instead
    of an ndarray is not modelled. *)
Definition na_ufunc {A B} (uninit : list nat -> B) (fs : list (list A -> B))
           (inputs : list (operand A)) (where_ : option (sarr bool))
           (outs : list (option (sarr B))) : res (list (sarr B)) :=
  sh <- match flat_map olist outs with
        | o :: l => if existsb (fun o' => negb (dict_eqb (sshape o') (sshape o))) l
                    then Err ValueError else Ok (sshape o)
        | [] => shape_broadcasted inputs
        end ;;
  mask <- match where_ with
          | Some w => m <- ndarray_aligned w (dkeys sh) ;; Ok (Some m)
          | None => Ok None
          end ;;
  ins <- mapM (op_aligned (dkeys sh)) inputs ;;
  rs <- np_ufunc_out uninit fs ins mask (map (option_map s_nd) outs) ;;
  rs <- mapM (fun r => mk_sarr r (dkeys sh)) rs ;;
  Ok (map (fun p => match snd p with
                    | Some o => mkS (s_nd (fst p)) (s_axes o)
                    | None => fst p
                    end) (combine rs outs)).

(** ** where *)

(** [np.where(c, x, y)] *)
Definition np_where {A} (c : nd bool) (x y : nd A) : res (nd A) :=
  match bshapes [nshape c; nshape x; nshape y] with
  | Some s => Ok (mkNd s (fun idx => if bget c idx then bget x idx else bget y idx))
  | None => Err ValueError
  end.

(** [scalars._normalize], scalars.py:52-62: a plain number becomes a
    0-dimensional array *)
Definition normalize {A} (o : operand A) : sarr A :=
  match o with OpArr a => a | OpNum x => mkS (scalar x) [] end.

(** [where], scalar_array_functions.py:922-944 *)
Definition na_where {A} (condition : operand bool) (x y : operand A) : res (sarr A) :=
  let condition := normalize condition in
  let x := normalize x in
  let y := normalize y in
  sh <- broadcast_shapes [sshape condition; sshape x; sshape y] ;;
  c <- ndarray_aligned condition (dkeys sh) ;;
  x <- ndarray_aligned x (dkeys sh) ;;
  y <- ndarray_aligned y (dkeys sh) ;;
  r <- np_where c x y ;;
  mk_sarr r (dkeys sh).

(** ** clip *)

Section Clip.
Context {A : Type} (minimum maximum : A -> A -> A).

(** [np.clip(a, lo, hi)] is [minimum(maximum(a, lo), hi)], a bound [None] is
    skipped; here all arrays have the same shape *)
Definition np_clip (a : nd A) (lo hi : option (nd A)) : nd A :=
  mkNd (nshape a) (fun idx =>
    let v := match lo with Some l => maximum (nget a idx) (nget l idx) | None => nget a idx end in
    match hi with Some h => minimum v (nget h idx) | None => v end).

(** [clip], scalar_array_functions.py:999-1043, with both bounds given (possibly
    [None]).  With [out] the axes and the shape are those of [out]; its old
    elements are not used. *)
Definition na_clip (a : operand A) (a_min a_max : option (operand A)) (out : option (sarr A))
  : res (sarr A) :=
  let a := normalize a in
  let sh := match out with Some o => sshape o | None => sshape a end in
  let bound (o : option (operand A)) : res (option (nd A)) :=
    match o with
    | Some b => r <- na_broadcast_to (normalize b) sh false ;; Ok (Some (s_nd r))
    | None => Ok None
    end in
  a <- na_broadcast_to a sh false ;;
  lo <- bound a_min ;;
  hi <- bound a_max ;;
  mk_sarr (np_clip (s_nd a) lo hi) (dkeys sh).
End Clip.

(** ** copyto *)

(** [np.copyto(dst, src, where=where)]: [src] and [where] are broadcast to the
    shape of [dst] *)
Definition np_copyto {A} (dst src : nd A) (where_ : nd bool) : res (nd A) :=
  if bto_rev (rev (nshape src)) (rev (nshape dst)) && bto_rev (rev (nshape where_)) (rev (nshape dst))
  then Ok (mkNd (nshape dst)
                (fun idx => if bget where_ idx then bget src idx else nget dst idx))
  else Err ValueError.

(** [copyto], scalar_array_functions.py:495-532: the value of [dst] afterwards.
    [is_ndarray] tells whether [dst] holds an ndarray; if it holds a Python
    number, [np.copyto] raises [TypeError], and the code falls back to replacing
    the whole value ([AttributeError] if [src] is a plain number).  [np.copyto] also
    raises [TypeError] when the elements cannot be cast, and then the same happens. *)
Definition na_copyto {A} (is_ndarray : bool) (dst : sarr A) (src : operand A)
           (where_ : operand bool) : res (sarr A) :=
  s <- op_aligned (s_axes dst) src ;;
  w <- op_aligned (s_axes dst) where_ ;;
  if is_ndarray
  then r <- np_copyto (s_nd dst) s w ;; Ok (mkS r (s_axes dst))
  else match src with
       | OpArr a => Ok (mkS (s_nd a) (s_axes dst))
       | OpNum _ => Err AttributeError
       end.
