(** Model of programs that build scalar arrays out of each other: the state is the
    list of all arrays made so far, and every call of the library adds arrays to it
    or changes one of them in place. *)
From Coq Require Import String List Arith ZArith Bool QArith Qcanon.
From Verif Require Import Base Numpy Shapes Scalar Reorder Elementwise Reduce Along Sorting Derived.
Import ListNotations.
Open Scope nat_scope.
Open Scope list_scope.

(** [array_function_default], scalar_array_functions.py:179-242, with an [out] that
    holds a Python number instead of an ndarray: numpy is called without [out] (209-212)
    and the result replaces the number, [out.ndarray = result_ndarray] (240), while the
    axes of [out] stay. *)
Definition na_reduce_number {A B} (identity : bool) (f : list A -> B) (a : sarr A)
           (axis : option (list string)) (keepdims : bool) (where_ : option (operand bool))
           (out : sarr B) : res (sarr B) :=
  sh <- broadcast_shapes (sshape a :: match where_ with Some w => op_shapes [w] | None => [] end) ;;
  let axis_n := axis_normalized a axis in
  if match axis with
     | Some _ => negb (forallb (fun ax => smem ax (dkeys sh)) axis_n)
     | None => false
     end then Err ValueError
  else
    let axes_ndarray :=
      if keepdims then s_axes out else s_axes out ++ filter (fun ax => negb (smem ax (s_axes out))) (dkeys sh) in
    axes <- mapM (fun ax => index_of ax axes_ndarray) axis_n ;;
    mask <- match where_ with
            | Some w => m <- op_aligned axes_ndarray w ;; Ok (Some m)
            | None => Ok None
            end ;;
    n <- ndarray_aligned a axes_ndarray ;;
    r <- np_reduce identity f n axes keepdims mask None ;;
    Ok (mkS r (s_axes out)).

(** [ScalarArray.from_scalar_array], scalars.py:902-924: anything that is not a named
    array becomes the value of an array without axes *)
Definition from_scalar_array {A} (a : sarr A + nd A) : sarr A :=
  match a with
  | inl a => mkS (s_nd a) (s_axes a)
  | inr n => mkS n []
  end.

(** [a.astype(...)], a comparison and so on: a function of the elements *)
Definition smap {A B} (f : A -> B) (a : sarr A) : sarr B :=
  mkS (mkNd (nshape (s_nd a)) (fun idx => f (nget (s_nd a) idx))) (s_axes a).

Section History.
(** the elements, and what they mean as an element of a mask and as an index *)
Context {V : Type} (truth : V -> bool) (int : V -> Z) (count : V -> nat) (of_int : Z -> V).

Definition heap : Type := list (sarr V).

(** an argument: an array made before, or a plain number *)
Inductive arg : Type :=
| Made (k : nat)
| Num (x : V).

(** an entry of an index dictionary *)
Inductive entry : Type :=
| EBasic (i : item)          (* None, an integer or a slice; also a new array of integers *)
| EMade (k : nat).           (* an array made before *)

(** one call.  The functions that numpy applies are arguments. *)
Inductive call : Type :=
| New (n : nd V) (axes : list string)                                 (* ScalarArray(n, axes) *)
| FromScalar (a : nat + nd V)                                         (* ScalarArray.from_scalar_array(a) *)
| Write (k : nat) (g : list nat -> V)                                 (* the elements of an array change, through a view or numpy *)
| GetItem (k : nat) (it : dict entry)                                 (* a[{...}] *)
| GetMask (k m : nat)                                                 (* a[mask] *)
| SetItem (k : nat) (it : dict entry) (v : arg)                       (* a[{...}] = v *)
| SetMask (k m : nat) (v : arg)                                       (* a[mask] = v *)
| Ufunc (uninit : list nat -> V) (fs : list (list V -> V)) (ins : list arg) (w : option nat) (outs : list (option nat))
| Reduce (identity : bool) (f : list V -> V) (k : nat) (axis : option (list string)) (keepdims : bool) (w : option arg)
         (out : option nat)
| ReduceNumber (identity : bool) (f : list V -> V) (k : nat) (axis : option (list string)) (keepdims : bool) (w : option arg)
         (out : nat)
| Cumulative (scan : list V -> V) (initial : bool) (k : nat) (axis : option (list string)) (out : option nat)
| Concatenate (l : list arg) (axis : string) (out : option nat)
| Stack (l : list arg) (axis : string) (out : option nat)
| Diff (sub : V -> V -> V) (n k : nat) (axis : string) (prepend append : option arg)
| Repeat (k : nat) (repeats : arg) (axis : string)
| TakeAlongAxis (a i : arg) (axis : string)
| Sort (sort1 : list V -> list V) (k : nat) (axis : option (list string))
| Partition (part1 : list V -> list V) (kth : list Z) (k : nat) (axis : string)
| Argsort (argsort1 : list V -> list nat) (k : nat) (axis : option (list string))
| ArgReduce (pick : list V -> nat) (k : nat) (axis : option (list string))
| Transpose (k : nat) (axes : option (list string))
| MoveAxis (k : nat) (source destination : list string)
| Reshape (k : nat) (sh : shape)
| AddAxes (k : nat) (axes : list string)
| ChangeAxisIndex (k : nat) (axis : string) (index : Z)
| CombineAxes (k : nat) (axes : option (list string)) (axis_new : option string)
| BroadcastTo (k : nat) (sh : shape) (append : bool)
| Where (c x y : arg)
| Clip (minimum maximum : V -> V -> V) (a : arg) (lo hi : option arg) (out : option nat)
| CopyTo (accepted : bool) (dst : nat) (src : arg) (w : arg)           (* accepted: numpy raises no TypeError *)
| UnravelIndex (k : nat) (sh : shape)
| Debroadcast (eqb : V -> V -> bool) (k : nat) (axes : option (list string))
| MeanTrimmed (part1 : list Z -> list V -> list V) (mean : list V -> V) (k : nat) (q : Q) (axis : option (list string))
         (keepdims : bool)
| CellCenters (add mul sub : V -> V -> V) (zero one half : V) (k : nat) (axis : option (list string)).

(** a name that is not bound *)
Definition fetch (h : heap) (k : nat) : res (sarr V) :=
  match nth_error h k with Some a => Ok a | None => Err KeyError end.

Definition fetch_arg (h : heap) (a : arg) : res (operand V) :=
  match a with
  | Made k => x <- fetch h k ;; Ok (OpArr x)
  | Num x => Ok (OpNum x)
  end.

Definition fetch_opt {X Y} (f : X -> res Y) (o : option X) : res (option Y) :=
  match o with Some x => y <- f x ;; Ok (Some y) | None => Ok None end.

Definition op_map {B} (f : V -> B) (o : operand V) : operand B :=
  match o with OpArr a => OpArr (smap f a) | OpNum x => OpNum (f x) end.

Definition fetch_item (h : heap) (kv : string * entry) : res (string * item) :=
  match snd kv with
  | EBasic i => Ok (fst kv, i)
  | EMade k => a <- fetch h k ;; Ok (fst kv, ItArr (smap int a))
  end.

(** the result is a new array, or an array that was there before *)
Definition put (h : heap) (out : option nat) (r : sarr V) : heap :=
  match out with None => h ++ [r] | Some k => set_nth k r h end.

Definition put_all (h : heap) (outs : list (option nat)) (rs : list (sarr V)) : heap :=
  fold_left (fun h p => put h (fst p) (snd p)) (combine outs rs) h.

Definition put_ints (h : heap) (d : dict (sarr Z)) : heap := h ++ map (fun kv => smap of_int (snd kv)) d.

(** one step of the program; an exception is caught and leaves the arrays alone *)
Definition step (h : heap) (c : call) : res heap :=
  match c with
  | New n axes => r <- mk_sarr n axes ;; Ok (h ++ [r])
  | FromScalar (inl k) => a <- fetch h k ;; Ok (h ++ [from_scalar_array (inl a)])
  | FromScalar (inr n) => Ok (h ++ [from_scalar_array (inr n)])
  | Write k g => a <- fetch h k ;; Ok (set_nth k (mkS (mkNd (nshape (s_nd a)) g) (s_axes a)) h)
  | GetItem k it => a <- fetch h k ;; it <- mapM (fetch_item h) it ;; r <- getitem a it ;; Ok (h ++ [r])
  | GetMask k m => a <- fetch h k ;; m <- fetch h m ;; r <- getitem_mask a (smap truth m) ;; Ok (h ++ [r])
  | SetItem k it v => a <- fetch h k ;; it <- mapM (fetch_item h) it ;; v <- fetch_arg h v ;;
      r <- setitem a it v ;; Ok (set_nth k r h)
  | SetMask k m v => a <- fetch h k ;; m <- fetch h m ;; v <- fetch_arg h v ;;
      r <- setitem_mask a (smap truth m) v ;; Ok (set_nth k r h)
  | Ufunc uninit fs ins w outs => ins <- mapM (fetch_arg h) ins ;;
      w <- fetch_opt (fun k => a <- fetch h k ;; Ok (smap truth a)) w ;;
      os <- mapM (fetch_opt (fetch h)) outs ;;
      rs <- na_ufunc uninit fs ins w os ;; Ok (put_all h outs rs)
  | Reduce identity f k axis keepdims w out => a <- fetch h k ;;
      w <- fetch_opt (fun x => o <- fetch_arg h x ;; Ok (op_map truth o)) w ;;
      o <- fetch_opt (fetch h) out ;;
      r <- na_reduce identity f a axis keepdims w o ;; Ok (put h out r)
  | ReduceNumber identity f k axis keepdims w out => a <- fetch h k ;;
      w <- fetch_opt (fun x => o <- fetch_arg h x ;; Ok (op_map truth o)) w ;;
      o <- fetch h out ;;
      r <- na_reduce_number identity f a axis keepdims w o ;; Ok (set_nth out r h)
  | Cumulative scan initial k axis out => a <- fetch h k ;; o <- fetch_opt (fetch h) out ;;
      r <- na_cumulative scan initial a axis o ;; Ok (put h out r)
  | Concatenate l axis out => l <- mapM (fetch_arg h) l ;; o <- fetch_opt (fetch h) out ;;
      r <- na_concatenate l axis o ;; Ok (put h out r)
  | Stack l axis out => l <- mapM (fetch_arg h) l ;; o <- fetch_opt (fetch h) out ;;
      r <- na_stack l axis o ;; Ok (put h out r)
  | Diff sub n k axis prepend append => a <- fetch h k ;; p <- fetch_opt (fetch_arg h) prepend ;;
      q <- fetch_opt (fetch_arg h) append ;; r <- na_diff sub n a axis p q ;; Ok (h ++ [r])
  | Repeat k repeats axis => a <- fetch h k ;; n <- fetch_arg h repeats ;;
      r <- na_repeat a (op_map count n) axis ;; Ok (h ++ [r])
  | TakeAlongAxis a i axis => a <- fetch_arg h a ;; i <- fetch_arg h i ;;
      r <- na_take_along_axis a (op_map int i) axis ;; Ok (h ++ [r])
  | Sort sort1 k axis => a <- fetch h k ;; r <- na_sort sort1 a axis ;; Ok (h ++ [r])
  | Partition part1 kth k axis => a <- fetch h k ;; r <- na_partition part1 kth a axis ;; Ok (h ++ [r])
  | Argsort argsort1 k axis => a <- fetch h k ;; d <- na_argsort argsort1 a axis ;; Ok (put_ints h d)
  | ArgReduce pick k axis => a <- fetch h k ;; d <- na_arg_reduce pick a axis ;; Ok (put_ints h d)
  | Transpose k axes => a <- fetch h k ;; r <- na_transpose a axes ;; Ok (h ++ [r])
  | MoveAxis k source destination => a <- fetch h k ;; r <- na_moveaxis a source destination ;; Ok (h ++ [r])
  | Reshape k sh => a <- fetch h k ;; r <- na_reshape a sh ;; Ok (h ++ [r])
  | AddAxes k axes => a <- fetch h k ;; r <- add_axes a axes ;; Ok (h ++ [r])
  | ChangeAxisIndex k axis index => a <- fetch h k ;; r <- change_axis_index a axis index ;; Ok (h ++ [r])
  | CombineAxes k axes axis_new => a <- fetch h k ;; r <- combine_axes a axes axis_new ;; Ok (h ++ [r])
  | BroadcastTo k sh append => a <- fetch h k ;; r <- na_broadcast_to a sh append ;; Ok (h ++ [r])
  | Where c x y => c <- fetch_arg h c ;; x <- fetch_arg h x ;; y <- fetch_arg h y ;;
      r <- na_where (op_map truth c) x y ;; Ok (h ++ [r])
  | Clip minimum maximum a lo hi out => a <- fetch_arg h a ;; lo <- fetch_opt (fetch_arg h) lo ;;
      hi <- fetch_opt (fetch_arg h) hi ;; o <- fetch_opt (fetch h) out ;;
      r <- na_clip minimum maximum a lo hi o ;; Ok (put h out r)
  | CopyTo accepted dst src w => d <- fetch h dst ;; s <- fetch_arg h src ;; w <- fetch_arg h w ;;
      r <- na_copyto accepted d s (op_map truth w) ;; Ok (set_nth dst r h)
  | UnravelIndex k sh => a <- fetch h k ;; d <- na_unravel_index (smap int a) sh ;; Ok (put_ints h d)
  | Debroadcast eqb k axes => a <- fetch h k ;; r <- na_debroadcast eqb a axes ;; Ok (h ++ [r])
  | MeanTrimmed part1 mean k q axis keepdims => a <- fetch h k ;;
      r <- na_mean_trimmed part1 mean a q axis keepdims ;; Ok (h ++ [r])
  | CellCenters add mul sub zero one half k axis => a <- fetch h k ;;
      r <- na_cell_centers add mul sub zero one half a axis None ;; Ok (h ++ [r])
  end.

Definition after (h : heap) (c : call) : heap := match step h c with Ok h' => h' | Err _ => h end.
Definition run (cs : list call) (h : heap) : heap := fold_left after cs h.
End History.
