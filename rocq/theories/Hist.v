(** Model of [na.histogram], [na.histogram2d] and [na.histogramdd] for scalar
    arrays (named_arrays/_scalars/scalar_named_array_functions.py), over exact
    numbers.  Units and [density=True] are not modelled. *)
From Coq Require Import String List Arith ZArith Bool QArith Qcanon.
From Verif Require Import Base Numpy Shapes Scalar Elementwise Reduce Derived Interp.
Import ListNotations.
Open Scope nat_scope.
Open Scope list_scope.

(** ** numpy *)

(** [np.min] and [np.max] of a nonempty list *)
Definition list_min (l : list Qc) : Qc :=
  match l with [] => qz 0 | x :: l' => fold_left (fun m y => if qc_leb m y then m else y) l' x end.
Definition list_max (l : list Qc) : Qc :=
  match l with [] => qz 0 | x :: l' => fold_left (fun m y => if qc_leb y m then m else y) l' x end.

Definition qc_eqb (x y : Qc) : bool := qc_leb x y && qc_leb y x.

(** no edge is greater than the next *)
Fixpoint monotonic (l : list Qc) : bool :=
  match l with
  | [] => true
  | x :: l' => match l' with [] => true | y :: _ => qc_leb x y && monotonic l' end
  end.

(** the edges of one dimension, numpy/lib/_histograms_impl.py (histogramdd): a
    0-d array is a number of bins and has to be an integer, which the float
    arrays of this model are not *)
Definition np_edges (b : nd Qc) : res (list Qc) :=
  match nshape b with
  | [] => if qc_ltb (nget b []) (qz 1) then Err ValueError else Err TypeError
  | [_] => if monotonic (ravel b) then Ok (ravel b) else Err ValueError
  | _ => Err ValueError
  end.

(** the bin of a sample: [searchsorted(edges, x, side='right')], less one on the
    last edge; bin zero holds the samples below the first edge *)
Definition np_bin (edges : list Qc) (x : Qc) : nat :=
  let n := length (filter (fun y => qc_leb y x) edges) in
  if qc_eqb x (last edges (qz 0)) then n - 1 else n.

(** [np.histogramdd] without [density]: the samples of every bin, outliers removed.
    [np.histogram2d] with two arrays of edges is the case of two dimensions. *)
Definition np_histogramdd (sample : list (list Qc)) (bins : list (nd Qc)) (weights : option (list Qc)) : res (nd Qc) :=
  if negb (length bins =? length sample) then Err ValueError
  else
    edges <- mapM np_edges bins ;;
    if existsb (fun l => length l =? 0) edges then Err IndexError
    else
      let here idx j :=
        forallb (fun p : (list Qc * list Qc) * nat =>
                   np_bin (fst (fst p)) (nth j (snd (fst p)) (qz 0)) =? S (snd p))
                (combine (combine edges sample) idx) in
      let weight j := match weights with Some w => nth j w (qz 0) | None => qz 1 end in
      Ok (mkNd (map (fun l => length l - 1) edges)
            (fun idx => fold_right Qcplus (qz 0)
               (map weight (filter (here idx) (seq 0 (length (hd [] sample))))))).

(** ** named_arrays *)

(** [{ax: slice-free integer index}], an item of [na.ndindex] *)
Definition int_items (i : dict nat) : dict item := map (fun kv => (fst kv, ItInt (Z.of_nat (snd kv)))) i.

(** [a[i].ndarray_aligned(axis).reshape(-1)] *)
Definition flat_part (a : sarr Qc) (i : dict nat) (axis : list string) : res (list Qc) :=
  x <- getitem a (int_items i) ;;
  n <- ndarray_aligned x axis ;;
  Ok (ravel n).

Definition weights_part (weights : option (sarr Qc)) (i : dict nat) (axis : list string) : res (option (list Qc)) :=
  match weights with
  | Some w => l <- flat_part w i axis ;; Ok (Some l)
  | None => Ok None
  end.

(** the body of the loop over the orthogonal axes, 434-451 and 540-551 *)
Definition hist_step (sample bins : list (sarr Qc)) (weights : option (sarr Qc)) (axis : list string)
           (hist : sarr Qc) (i : dict nat) : res (sarr Qc) :=
  b <- mapM (fun b => getitem b (int_items i)) bins ;;
  s <- mapM (fun s => flat_part s i axis) sample ;;
  w <- weights_part weights i axis ;;
  h <- np_histogramdd s (map s_nd b) w ;;
  v <- mk_sarr h (flat_map s_axes b) ;;
  setitem hist (int_items i) (OpArr v).

Definition orthogonal (sh : shape) (axis : list string) : shape :=
  filter (fun kv => negb (smem (fst kv) axis)) sh.

(** from [shape_orthogonal] to the end, 349, 411-451 and 520-551; [junk] is what
    [ScalarArray.empty] happens to contain.  A negative size is refused there. *)
Definition hist_core (junk : Qc) (sample : list (sarr Qc)) (weights : option (sarr Qc)) (sh : shape)
           (axis : list string) (bins : list (sarr Qc)) : res (sarr Qc) :=
  let orth := orthogonal sh axis in
  bins_broadcasted <- mapM (fun b => t <- broadcast_shapes [orth; sshape b] ;; na_broadcast_to b t false) bins ;;
  shape_bins <- broadcast_shapes (map sshape bins) ;;
  let new := filter (fun kv => negb (smem (fst kv) (dkeys orth))) shape_bins in
  if existsb (fun kv => snd kv =? 0) new then Err ValueError
  else
    shape_hist <- broadcast_shapes [orth; map (fun kv => (fst kv, snd kv - 1)) new] ;;
    foldM (hist_step sample bins_broadcasted weights axis)
          (na_ndindex orth [])
          (mkS (mkNd (dvals shape_hist) (fun _ => junk)) (dkeys shape_hist)).

(** the two ways to give the bins *)
Inductive bin_spec : Type :=
| BinsDict (d : dict Z)                 (* the number of bins of every new axis *)
| BinsArr (l : list (sarr Qc)).         (* the edges, one array per dimension *)

(** the lower or upper limits: none, one for all dimensions, or a sequence *)
Inductive limit : Type :=
| LimNone
| LimOne (o : operand Qc)
| LimSeq (l : list (operand Qc)).

(** 382-391 and 488-496 *)
Definition limits (f : list Qc -> Qc) (l : limit) (sample : list (sarr Qc)) (axis : list string) : res (list (operand Qc)) :=
  match l with
  | LimNone => mapM (fun s => m <- na_reduce false f s (Some axis) false None None ;; Ok (OpArr m)) sample
  | LimOne o => Ok (repeat o (length sample))
  | LimSeq l => Ok l
  end.

(** the broadcast arguments, 330-347 and 470-484 *)
Definition hist_arguments (sample : list (sarr Qc)) (weights : option (sarr Qc))
  : res (shape * list (sarr Qc) * option (sarr Qc)) :=
  sh <- broadcast_shapes (map sshape sample ++ match weights with Some w => [sshape w] | None => [] end) ;;
  s <- mapM (fun s => na_broadcast_to s sh false) sample ;;
  w <- match weights with
       | Some w => w <- na_broadcast_to w sh false ;; Ok (Some w)
       | None => Ok None
       end ;;
  Ok (sh, s, w).

(** the edges of [histogramdd], 486-518 *)
Definition edges_dd (bins : bin_spec) (mn mx : limit) (sample : list (sarr Qc)) (axis : list string)
  : res (list (sarr Qc)) :=
  match bins with
  | BinsArr l => Ok l
  | BinsDict d =>
      mn <- limits list_min mn sample axis ;;
      mx <- limits list_max mx sample axis ;;
      if negb (length d =? length sample) then Err ValueError
      else mapM (fun p : (operand Qc * operand Qc) * (string * Z) =>
                   na_linspace (OpArr (normalize (fst (fst p)))) (OpArr (normalize (snd (fst p))))
                               (fst (snd p)) (snd (snd p)) true false)
                (combine (combine mn mx) d)
  end.

(** [histogramdd], 459-553.  Without a sample the dispatch finds no
    implementation, _named_array_functions.py:52-78. *)
Definition na_histogramdd (junk : Qc) (sample : list (sarr Qc)) (bins : bin_spec) (axis : option (list string))
           (mn mx : limit) (weights : option (sarr Qc)) : res (sarr Qc * list (sarr Qc)) :=
  if length sample =? 0 then Err TypeError
  else
    p <- hist_arguments sample weights ;;
    let '(sh, s, w) := p in
    let axis := match axis with Some l => l | None => dkeys sh end in
    edges <- edges_dd bins mn mx s axis ;;
    h <- hist_core junk s w sh axis edges ;;
    Ok (h, edges).

(** [histogram], 289-317: the inputs and the outputs of the function array *)
Definition na_histogram (junk : Qc) (a : sarr Qc) (bins : bin_spec) (axis : option (list string))
           (mn mx : limit) (weights : option (sarr Qc)) : res (sarr Qc * sarr Qc) :=
  r <- na_histogramdd junk [a] bins axis mn mx weights ;;
  match snd r with
  | e :: _ => Ok (e, fst r)
  | [] => Err IndexError
  end.

(** the new axes of the edges of [histogram2d] have to be one each and distinct,
    353-373 *)
Definition new_axes (b : sarr Qc) (orth : shape) : list string :=
  filter (fun ax => negb (smem ax (dkeys orth))) (s_axes b).

(** the edges of [histogram2d], 351-409: [Cartesian2dVectorLinearSpace] is
    [na.linspace] of every component *)
Definition edges_2d (bins : bin_spec) (mn mx : limit) (sample : list (sarr Qc)) (axis : list string) (orth : shape)
  : res (list (sarr Qc)) :=
  match bins with
  | BinsArr l =>
      match map (fun b => new_axes b orth) l with
      | [[x]; [y]] => if String.eqb x y then Err ValueError else Ok l
      | _ => Err ValueError
      end
  | BinsDict d =>
      mn <- limits list_min mn sample axis ;;
      mx <- limits list_max mx sample axis ;;
      if negb (length d =? 2) then Err ValueError
      else mapM (fun p : (operand Qc * operand Qc) * (string * Z) =>
                   na_linspace (fst (fst p)) (snd (fst p)) (fst (snd p)) (snd (snd p) + 1)%Z true false)
                (combine (combine mn mx) d)
  end.

(** [histogram2d], 320-456: the inputs and the outputs of the function array *)
Definition na_histogram2d (junk : Qc) (x y : sarr Qc) (bins : bin_spec) (axis : option (list string))
           (mn mx : limit) (weights : option (sarr Qc)) : res (list (sarr Qc) * sarr Qc) :=
  p <- hist_arguments [x; y] weights ;;
  let '(sh, s, w) := p in
  let axis := match axis with Some l => l | None => dkeys sh end in
  edges <- edges_2d bins mn mx s axis (orthogonal sh axis) ;;
  h <- hist_core junk s w sh axis edges ;;
  Ok (edges, h).
