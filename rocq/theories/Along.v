(** Model of the array functions that work along one axis: cumulative sums,
    differences, repetition, stacking, concatenation and gathering
    (named_arrays/_scalars/scalar_array_functions.py). *)
From Coq Require Import String List Arith ZArith Bool Lia.
From Verif Require Import Base Numpy Shapes Scalar Reorder Elementwise Reduce.
Import ListNotations.
Open Scope nat_scope.
Open Scope list_scope.

Fixpoint set_nth {A} (p : nat) (x : A) (l : list A) : list A :=
  match l with
  | [] => []
  | y :: l' => match p with 0 => x :: l' | S p' => y :: set_nth p' x l' end
  end.

(** the elements met when only position [p] of the index [idx] varies *)
Definition np_line {A} (a : nd A) (p : nat) (idx : list nat) : list A :=
  map (fun j => nget a (set_nth p j idx)) (seq 0 (nth p (nshape a) 0)).

(** a numpy function acting on the lines along the dimension [p] (trusted numpy
    behaviour): a line of [n] elements becomes a line of [len n] elements, the
    [i]-th one being [g line i] *)
Definition np_along {A B} (len : nat -> nat) (g : list A -> nat -> B) (a : nd A) (p : nat) : nd B :=
  mkNd (set_nth p (len (nth p (nshape a) 0)) (nshape a))
       (fun idx => g (np_line a p idx) (nth p idx 0)).

(** ** Cumulative functions *)

(** [array_function_cumulative_reduce], scalar_array_functions.py:245-298
    ([cumsum], [cumulative_sum], [cumprod], [cumulative_prod] and their nan
    variants).  [scan] gives the value for a prefix of the line;
    [include_initial] is the keyword of [cumulative_sum], which adds the empty
    prefix.  Note that the code hands over [a.ndarray], not aligned with [out]. *)
Definition na_cumulative {A B} (scan : list A -> B) (include_initial : bool) (a : sarr A)
           (axis : option (list string)) (out : option (sarr B)) : res (sarr B) :=
  match axis_normalized a axis with
  | [ax] =>
      if match axis with Some _ => negb (smem ax (dkeys (sshape a))) | None => false end
      then Err ValueError
      else
        let axes_ndarray := match out with Some o => s_axes o | None => dkeys (sshape a) end in
        p <- index_of ax axes_ndarray ;;
        if negb (p <? ndim (s_nd a)) then Err ValueError  (* numpy: AxisError, a ValueError *)
        else
          let r := np_along (fun n => if include_initial then S n else n)
                            (fun l i => scan (firstn (if include_initial then i else S i) l))
                            (s_nd a) p in
          if negb (match out with Some o => idx_eqb (nshape (s_nd o)) (nshape r) | None => true end)
          then Err ValueError
          else match out with
               | None => mk_sarr r axes_ndarray
               | Some o => Ok (mkS r (s_axes o))
               end
  | _ => Err ValueError
  end.

(** ** Concatenation *)

(** element [i] along the dimension [p] of the arrays [a], [l], ... put one
    after the other *)
Fixpoint cat_get {A} (a : nd A) (l : list (nd A)) (p i : nat) (idx : list nat) : A :=
  match l with
  | [] => nget a (set_nth p i idx)
  | b :: l' =>
      if i <? nth p (nshape a) 0 then nget a (set_nth p i idx)
      else cat_get b l' p (i - nth p (nshape a) 0) idx
  end.

(** [np.concatenate(arrays, axis=p)]: at least one array, and all shapes equal
    except at position [p] *)
Definition np_concatenate {A} (l : list (nd A)) (p : nat) : res (nd A) :=
  match l with
  | [] => Err ValueError
  | a :: l' =>
      if forallb (fun b => idx_eqb (set_nth p 0 (nshape b)) (set_nth p 0 (nshape a))) l'
      then Ok (mkNd (set_nth p (list_sum (map (fun b => nth p (nshape b) 0) l)) (nshape a))
                    (fun idx => cat_get a l' p (nth p idx 0) idx))
      else Err ValueError
  end.

(** write [r] into the array [out] through the view [out.transpose(axes)]
    (numpy requires the shape of the view to be that of [r]) *)
Definition write_out {A} (out : sarr A) (axes : list string) (r : nd A) : res (sarr A) :=
  view <- na_transpose (iota_of out) (Some axes) ;;
  if negb (idx_eqb (nshape (s_nd view)) (nshape r)) then Err ValueError
  else b <- assign (s_nd out) (s_nd view) r ;; Ok (mkS b (s_axes out)).

(** [concatenate], scalar_array_functions.py:631-685 *)
Definition na_concatenate {A} (arrays : list (operand A)) (axis : string) (out : option (sarr A))
  : res (sarr A) :=
  let arrays := map normalize arrays in
  if existsb (fun a => negb (smem axis (dkeys (sshape a)))) arrays then Err ValueError
  else
    proto <- broadcast_shapes (map (fun a => dset (sshape a) axis 1) arrays) ;;
    nds <- mapM (fun a =>
             let sh := match dget (sshape a) axis with
                       | Some n => dset proto axis n
                       | None => proto
                       end in
             b <- na_broadcast_to a sh false ;; Ok (s_nd b)) arrays ;;
    p <- index_of axis (dkeys proto) ;;
    r <- np_concatenate nds p ;;
    match out with
    | Some o => write_out o (dkeys proto) r
    | None => mk_sarr r (dkeys proto)
    end.

(** [np.stack(arrays, axis=0)]: at least one array, all of the same shape *)
Definition np_stack {A} (l : list (nd A)) : res (nd A) :=
  match l with
  | [] => Err ValueError
  | a :: l' =>
      if forallb (fun b => idx_eqb (nshape b) (nshape a)) l'
      then Ok (mkNd (length l :: nshape a)
                    (fun idx => nget (nth (hd 0 idx) l a) (tl idx)))
      else Err ValueError
  end.

(** [stack], scalar_array_functions.py:588-628 *)
Definition na_stack {A} (arrays : list (operand A)) (axis : string) (out : option (sarr A))
  : res (sarr A) :=
  let arrays := map normalize arrays in
  sh <- broadcast_shapes (map sshape arrays) ;;
  if smem axis (dkeys sh) then Err ValueError
  else
    nds <- mapM (fun a => b <- na_broadcast_to a sh false ;; Ok (s_nd b)) arrays ;;
    let axes_new := axis :: dkeys sh in
    r <- np_stack nds ;;
    match out with
    | Some o => write_out o axes_new r
    | None => mk_sarr r axes_new
    end.

(** ** Differences *)

(** one step of [np.diff]: [a[1:] - a[:-1]] along the dimension [p] *)
Definition np_diff1 {A} (sub : A -> A -> A) (a : nd A) (p : nat) : nd A :=
  mkNd (set_nth p (nth p (nshape a) 0 - 1) (nshape a))
       (fun idx => sub (nget a (set_nth p (S (nth p idx 0)) idx)) (nget a idx)).

(** [np.diff(a, n, axis=p, prepend=prepend, append=append)]; numpy returns [a]
    unchanged when [n] is 0 *)
Definition np_diff {A} (sub : A -> A -> A) (n : nat) (a : nd A) (p : nat)
           (prepend append : option (nd A)) : res (nd A) :=
  match n with
  | 0 => Ok a
  | _ =>
      c <- np_concatenate (olist prepend ++ [a] ++ olist append) p ;;
      Ok (Nat.iter n (fun b => np_diff1 sub b p) c)
  end.

(** [diff], scalar_array_functions.py:1070-1109 ([n] negative is not modelled) *)
Definition na_diff {A} (sub : A -> A -> A) (n : nat) (a : sarr A) (axis : string)
           (prepend append : option (operand A)) : res (sarr A) :=
  let sh := sshape a in
  if negb (smem axis (dkeys sh)) then Err ValueError
  else
    let ends := map (fun kv : string * nat => (fst kv, if String.eqb (fst kv) axis then 1 else snd kv)) sh in
    let fit (o : option (operand A)) : res (option (nd A)) :=
      match o with
      | Some b => r <- na_broadcast_to (normalize b) ends false ;; Ok (Some (s_nd r))
      | None => Ok None
      end in
    pre <- fit prepend ;;
    app <- fit append ;;
    p <- index_of axis (dkeys sh) ;;
    r <- np_diff sub n (s_nd a) p pre app ;;
    mk_sarr r (dkeys sh).

(** ** Repetition *)

(** position in the line of the element number [i] when the element [j] is
    repeated [nth j reps] times *)
Fixpoint repeat_src (reps : list nat) (i : nat) : nat :=
  match reps with
  | [] => 0
  | k :: reps' => if i <? k then 0 else S (repeat_src reps' (i - k))
  end.

(** [np.repeat(a, repeats, axis=p)] with the repeats as a number or a
    one-dimensional array, of one entry or as many entries as the line *)
Definition np_repeat {A} (a : nd A) (repeats : nd nat) (p : nat) : res (nd A) :=
  let n := nth p (nshape a) 0 in
  match nshape repeats with
  | [] | [1] =>
      let k := hd 0 (ravel repeats) in
      Ok (mkNd (set_nth p (list_sum (repeat k n)) (nshape a))
               (fun idx => nget a (set_nth p (repeat_src (repeat k n) (nth p idx 0)) idx)))
  | [m] =>
      if m =? n
      then Ok (mkNd (set_nth p (list_sum (ravel repeats)) (nshape a))
                    (fun idx => nget a (set_nth p (repeat_src (ravel repeats) (nth p idx 0)) idx)))
      else Err ValueError
  | _ => Err ValueError
  end.

(** [repeat], scalar_array_functions.py:1046-1067: the axis of [repeats] is not
    looked at *)
Definition na_repeat {A} (a : sarr A) (repeats : operand nat) (axis : string) : res (sarr A) :=
  if negb (smem axis (s_axes a)) then Err ValueError
  else
    p <- index_of axis (s_axes a) ;;
    r <- np_repeat (s_nd a) (s_nd (normalize repeats)) p ;;
    mk_sarr r (s_axes a).

(** ** Gathering along an axis *)

(** [np.take_along_axis(a, indices, axis=0)] for arrays with the same number of
    dimensions, at least one: the other dimensions are broadcast, every index
    must be in range (negative ones count from the end) *)
Definition np_take_along_axis0 {A} (a : nd A) (ind : nd Z) : res (nd A) :=
  let n := hd 0 (nshape a) in
  match bshape2 (tl (nshape a)) (tl (nshape ind)) with
  | None => Err IndexError
  | Some s =>
      if forallb (zvalid n) (ravel ind)
      then Ok (mkNd (hd 0 (nshape ind) :: s)
                    (fun idx => nget a (znorm n (bget ind idx) :: bidx (tl (nshape a)) (tl idx))))
      else Err IndexError
  end.

(** [take_along_axis], scalar_array_functions.py:782-813 *)
Definition na_take_along_axis {A} (arr : operand A) (indices : operand Z) (axis : string)
  : res (sarr A) :=
  let arr := normalize arr in
  let indices := normalize indices in
  if negb (smem axis (s_axes arr)) then Err ValueError
  else
    let without (sh : shape) := filter (fun kv => negb (String.eqb (fst kv) axis)) sh in
    sh <- broadcast_shapes [without (sshape arr); without (sshape indices)] ;;
    let axes := axis :: dkeys sh in
    a <- ndarray_aligned arr axes ;;
    i <- ndarray_aligned indices axes ;;
    r <- np_take_along_axis0 a i ;;
    mk_sarr r axes.
