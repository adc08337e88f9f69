(** Model of the numpy primitives that the library calls.

    numpy is an external dependency; the definitions below state the
    behaviour the library relies on (they are part of the trusted base, see
    DESIGN.md).  An ndarray is a shape together with an index function; only
    in-bounds indices are meaningful. *)
From Coq Require Import String List Arith ZArith Bool Lia.
From Verif Require Import Base.
Import ListNotations.
Open Scope nat_scope.
Open Scope list_scope.

Record nd (A : Type) : Type := mkNd {
  nshape : list nat;
  nget : list nat -> A
}.
Arguments mkNd {A} _ _.
Arguments nshape {A} _.
Arguments nget {A} _ _.

(** in-bounds multi-indices *)
Definition inb (idx shape : list nat) : Prop := Forall2 lt idx shape.

Fixpoint inbb (idx shape : list nat) : bool :=
  match idx, shape with
  | [], [] => true
  | i :: idx', n :: shape' => (i <? n) && inbb idx' shape'
  | _, _ => false
  end.

Definition ndim {A} (a : nd A) : nat := length (nshape a).
Definition size {A} (a : nd A) : nat := prod (nshape a).

(** [np.ndindex(shape)]: all multi-indices in row-major order *)
Fixpoint ndindex (shape : list nat) : list (list nat) :=
  match shape with
  | [] => [[]]
  | n :: shape' =>
      flat_map (fun i => map (cons i) (ndindex shape')) (seq 0 n)
  end.

(** [a.reshape(-1)] as a list: the elements in row-major order *)
Definition ravel {A} (a : nd A) : list A := map (nget a) (ndindex (nshape a)).

(** row-major position of a multi-index *)
Fixpoint ravel_idx (shape idx : list nat) : nat :=
  match shape, idx with
  | n :: shape', i :: idx' => i * prod shape' + ravel_idx shape' idx'
  | _, _ => 0
  end.

(** multi-index of a row-major position *)
Fixpoint unravel (shape : list nat) (k : nat) : list nat :=
  match shape with
  | [] => []
  | n :: shape' => (k / prod shape') mod n :: unravel shape' (k mod prod shape')
  end.

(** build an array from its row-major elements (test helper and [np.array]) *)
Definition of_list {A} (d : A) (shape : list nat) (l : list A) : nd A :=
  mkNd shape (fun idx => nth (ravel_idx shape idx) l d).

(** a 0-dimensional array / Python number *)
Definition scalar {A} (x : A) : nd A := mkNd [] (fun _ => x).

(** [a[..., np.newaxis, ..., np.newaxis]] with [k] trailing new axes *)
Definition newaxes {A} (k : nat) (a : nd A) : nd A :=
  mkNd (nshape a ++ repeat 1 k) (fun idx => nget a (firstn (ndim a) idx)).

(** [np.transpose(a, perm)]: axis [j] of the result is axis [perm[j]] of [a] *)
Definition transpose {A} (perm : list nat) (a : nd A) : nd A :=
  mkNd (map (fun p => nth p (nshape a) 0) perm)
       (fun idx => nget a (map (fun i => nth (npos i perm) idx 0) (seq 0 (ndim a)))).

(** numpy's own algorithm for [np.moveaxis]: start from the axes that do not
    move, then insert the moved axes by increasing destination. *)
Fixpoint insert_pair (p : nat * nat) (l : list (nat * nat)) : list (nat * nat) :=
  match l with
  | [] => [p]
  | q :: l' =>
      if fst p <? fst q then p :: l
      else if (fst p =? fst q) && (snd p <=? snd q) then p :: l
      else q :: insert_pair p l'
  end.

Definition sort_pairs (l : list (nat * nat)) : list (nat * nat) :=
  fold_right insert_pair [] l.

Definition moveaxis_order (n : nat) (src dst : list nat) : list nat :=
  fold_left (fun order p => insert_at (fst p) (snd p) order)
            (sort_pairs (combine dst src))
            (filter (fun i => negb (nmem i src)) (seq 0 n)).

Definition moveaxis {A} (src dst : list nat) (a : nd A) : nd A :=
  transpose (moveaxis_order (ndim a) src dst) a.

(** [a.reshape(shape)] (row-major); the caller guarantees equal sizes *)
Definition reshape {A} (shape : list nat) (a : nd A) : nd A :=
  mkNd shape (fun idx => nget a (unravel (nshape a) (ravel_idx shape idx))).

(** ** Broadcasting *)

(** broadcasting of two sizes *)
Definition bsize (m n : nat) : option nat :=
  if m =? n then Some m else if m =? 1 then Some n else if n =? 1 then Some m else None.

(** both lists are given in reverse (innermost axis first) *)
Fixpoint bshape_rev (s t : list nat) : option (list nat) :=
  match s, t with
  | [], _ => Some t
  | _, [] => Some s
  | m :: s', n :: t' =>
      match bsize m n, bshape_rev s' t' with
      | Some k, Some r => Some (k :: r)
      | _, _ => None
      end
  end.

Definition bshape2 (s t : list nat) : option (list nat) :=
  option_map (@rev nat) (bshape_rev (rev s) (rev t)).

(** [np.broadcast_shapes(shapes)] *)
Fixpoint bshapes (l : list (list nat)) : option (list nat) :=
  match l with
  | [] => Some []
  | s :: l' => match bshapes l' with Some t => bshape2 s t | None => None end
  end.

(** the index at which an operand of shape [shape] is read when the broadcast
    result is read at [idx]: leading axes are dropped, size-1 axes read at 0 *)
Definition bidx (shape idx : list nat) : list nat :=
  map (fun p => if fst p =? 1 then 0 else snd p)
      (combine shape (skipn (length idx - length shape) idx)).

Definition bget {A} (a : nd A) (idx : list nat) : A := nget a (bidx (nshape a) idx).

(** elementwise application of a ufunc with any number of operands *)
Definition ufunc {A B} (f : list A -> B) (l : list (nd A)) : res (nd B) :=
  match bshapes (map nshape l) with
  | Some s => Ok (mkNd s (fun idx => f (map (fun a => bget a idx) l)))
  | None => Err ValueError
  end.

(** [np.broadcast_to(a, shape)]: succeeds only if broadcasting [a] against
    [shape] gives [shape] itself *)
Fixpoint bto_rev (s t : list nat) : bool :=
  match s, t with
  | [], _ => true
  | _ :: _, [] => false
  | m :: s', n :: t' => ((m =? n) || (m =? 1)) && bto_rev s' t'
  end.

Definition broadcast_to {A} (a : nd A) (shape : list nat) : res (nd A) :=
  if bto_rev (rev (nshape a)) (rev shape)
  then Ok (mkNd shape (fun idx => bget a idx))
  else Err ValueError.

(** ** Indexing *)

(** Python's [slice(start, stop, step)] *)
Record pyslice : Type := mkSlice {
  sl_start : option Z;
  sl_stop : option Z;
  sl_step : option Z
}.

Definition slice_all : pyslice := mkSlice None None None.

Definition zclamp (lo hi x : Z) : Z :=
  if (x <? lo)%Z then lo else if (hi <? x)%Z then hi else x.

(** [slice.indices(n)] followed by [range]: the selected positions, in order.
    A zero step raises [ValueError]. *)
Definition slice_bound (n lo hi dflt : Z) (x : option Z) : Z :=
  match x with
  | None => dflt
  | Some v => zclamp lo hi (if (v <? 0)%Z then v + n else v)%Z
  end.

Definition slice_positions (s : pyslice) (n : nat) : res (list nat) :=
  let step := match sl_step s with None => 1%Z | Some k => k end in
  let zn := Z.of_nat n in
  if (step =? 0)%Z then Err ValueError
  else
    let up := (0 <? step)%Z in
    let lo := if up then 0%Z else (-1)%Z in
    let hi := if up then zn else (zn - 1)%Z in
    let start := slice_bound zn lo hi (if up then lo else hi) (sl_start s) in
    let stop := slice_bound zn lo hi (if up then hi else lo) (sl_stop s) in
    let len :=
      if up
      then (if (start <? stop)%Z then ((stop - start - 1) / step + 1)%Z else 0%Z)
      else (if (stop <? start)%Z then ((start - stop - 1) / (- step) + 1)%Z else 0%Z) in
    Ok (map (fun i => Z.to_nat (start + Z.of_nat i * step)) (seq 0 (Z.to_nat len))).

(** one element of an index tuple *)
Inductive ixel : Type :=
| IxInt (z : Z)
| IxSlice (s : pyslice)
| IxArr (v : nd Z).

(** an in-range integer index, negative values counting from the end *)
Definition zvalid (n : nat) (z : Z) : bool :=
  (- Z.of_nat n <=? z)%Z && (z <? Z.of_nat n)%Z.
Definition znorm (n : nat) (z : Z) : nat :=
  Z.to_nat (if (z <? 0)%Z then z + Z.of_nat n else z)%Z.

Definition is_adv (x : ixel) : bool := match x with IxSlice _ => false | _ => true end.

Definition adv_nd (x : ixel) : list (nd Z) :=
  match x with IxInt z => [scalar z] | IxArr v => [v] | IxSlice _ => [] end.

(** an index tuple whose slices have been resolved against the sizes *)
Inductive rix : Type :=
| RInt (n : nat) (z : Z)
| RArr (n : nat) (v : nd Z)
| RPos (l : list nat).

Definition resolve1 (x : ixel) (n : nat) : res rix :=
  match x with
  | IxInt z => if zvalid n z then Ok (RInt n z) else Err IndexError
  | IxArr v => if forallb (zvalid n) (ravel v) then Ok (RArr n v) else Err IndexError
  | IxSlice s => l <- slice_positions s n ;; Ok (RPos l)
  end.

Fixpoint resolve (ix : list ixel) (dims : list nat) : res (list rix) :=
  match ix, dims with
  | [], [] => Ok []
  | x :: ix', n :: dims' => r <- resolve1 x n ;; rs <- resolve ix' dims' ;; Ok (r :: rs)
  | _, _ => Err IndexError
  end.

(** source index read for advanced position [b] and slice positions [sl] *)
Fixpoint src_idx (rs : list rix) (b sl : list nat) : list nat :=
  match rs with
  | [] => []
  | RInt n z :: rs' => znorm n z :: src_idx rs' b sl
  | RArr n v :: rs' => znorm n (bget v b) :: src_idx rs' b sl
  | RPos l :: rs' =>
      match sl with
      | j :: sl' => nth j l 0 :: src_idx rs' b sl'
      | [] => 0 :: src_idx rs' b []
      end
  end.

Definition slice_dims (rs : list rix) : list nat :=
  flat_map (fun r => match r with RPos l => [length l] | _ => [] end) rs.

(** number of slices before the first advanced index *)
Fixpoint lead_slices (ix : list ixel) : nat :=
  match ix with
  | IxSlice _ :: ix' => S (lead_slices ix')
  | _ => 0
  end.

Fixpoint drop_adv (ix : list ixel) : list ixel :=
  match ix with
  | x :: ix' => if is_adv x then drop_adv ix' else ix
  | [] => []
  end.

(** are all the advanced indices next to each other? *)
Definition adv_contiguous (ix : list ixel) : bool :=
  negb (existsb is_adv (drop_adv (skipn (lead_slices ix) ix))).

Definition has_arr (ix : list ixel) : bool :=
  existsb (fun x => match x with IxArr _ => true | _ => false end) ix.

(** [a[tuple(ix)]] with one index element for each axis of [a].  Integers mixed
    with arrays are advanced indices; the broadcast dimensions of the advanced
    indices replace them in place when they are contiguous and go first
    otherwise. *)
Definition np_index {A} (ix : list ixel) (a : nd A) : res (nd A) :=
  rs <- resolve ix (nshape a) ;;
  match bshapes (map nshape (flat_map adv_nd ix)) with
  | None => Err IndexError
  | Some b =>
      let p := if adv_contiguous ix then lead_slices ix else 0 in
      let sd := slice_dims rs in
      Ok (mkNd (firstn p sd ++ b ++ skipn p sd)
               (fun r => nget a (src_idx rs (firstn (length b) (skipn p r))
                                        (firstn p r ++ skipn (p + length b) r))))
  end.

(** [a[mask]] for a boolean mask over the leading axes of [a]: the true
    positions in row-major order become the first axis of the result. *)
Definition np_mask {A} (mask : nd bool) (a : nd A) : res (nd A) :=
  let k := ndim mask in
  if list_eq_dec Nat.eq_dec (nshape mask) (firstn k (nshape a))
  then
    let sel := filter (nget mask) (ndindex (nshape mask)) in
    Ok (mkNd (length sel :: skipn k (nshape a))
             (fun r => match r with
                       | j :: r' => nget a (nth j sel [] ++ r')
                       | [] => nget a []
                       end))
  else Err IndexError.

(** ** Assignment through a view

    A view of an array is described by applying the same indexing operations to
    the array of its own multi-indices. *)
Definition iota (shape : list nat) : nd (list nat) := mkNd shape (fun idx => idx).

Definition idx_eqb (i j : list nat) : bool :=
  if list_eq_dec Nat.eq_dec i j then true else false.

Definition upd {A} (a : nd A) (i : list nat) (x : A) : nd A :=
  mkNd (nshape a) (fun j => if idx_eqb j i then x else nget a j).

(** [view[...] = value]: element by element in row-major order, the value being
    broadcast to the shape of the view.  numpy additionally lets the value have
    extra leading axes of size 1. *)
Fixpoint strip_leading (s : list nat) (k : nat) : option (list nat) :=
  match k with
  | 0 => Some s
  | S k' => match s with 1 :: s' => strip_leading s' k' | _ => None end
  end.

Definition assign {A} (base : nd A) (view : nd (list nat)) (value : nd A) : res (nd A) :=
  let extra := ndim value - ndim view in
  match strip_leading (nshape value) extra with
  | None => Err ValueError
  | Some s =>
      if bto_rev (rev s) (rev (nshape view))
      then Ok (fold_left
                 (fun b p => upd b (nget view p)
                                 (nget value (repeat 0 extra ++ bidx s p)))
                 (ndindex (nshape view)) base)
      else Err ValueError
  end.
