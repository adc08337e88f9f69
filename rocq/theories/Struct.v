(** Model of the functions on nested structures: [getitem], [pack] and
    [unpack] (named_arrays/_core.py) and [shape]
    (named_arrays/_named_array_functions.py). *)
From Coq Require Import String List Arith ZArith Bool Lia.
From Verif Require Import Base Numpy Shapes Scalar Elementwise Vector.
Import ListNotations.
Open Scope nat_scope.
Open Scope list_scope.

(** The leaves of a structure: a scalar array, a vector array or a Python number
    ([LVec]), a plain numpy array, another object (None, a string, ...), or a
    dataclass type (the class itself, not an instance). *)
Inductive leaf (A : Type) : Type :=
| LVec (v : vec A)
| LNd (n : nd A)
| LOther (x : string)
| LClass (x : string).
Arguments LVec {A} _.
Arguments LNd {A} _.
Arguments LOther {A} _.
Arguments LClass {A} _.

(** A nested structure.  A node is a dict, a list, a tuple, a NamedTuple or a
    dataclass instance; its type says which.  The children of a list or tuple
    are named by their positions.  The children of a dataclass instance are its
    [init] fields; the other fields, which [dataclasses.replace] computes again,
    are not modelled, nor are function arrays and uncertain arrays. *)
Notation struct A := (tree (leaf A)).

(** type names of subclasses of [typing.NamedTuple] *)
Definition is_named_tuple (ty : string) : bool := String.prefix "NamedTuple" ty.

(** ** Indexing *)

(** [getitem], _core.py:374-398.  A dataclass type passes
    [dataclasses.is_dataclass] and then [dataclasses.replace] (or [getattr])
    raises.  A NamedTuple becomes a tuple. *)
Fixpoint s_getitem {A} (s : struct A) (it : dict (tree item)) : res (struct A) :=
  match s with
  | Leaf (LVec v) => r <- vec_getitem v it ;; Ok (Leaf (LVec r))
  | Leaf (LClass _) => Err TypeError
  | Leaf l => Ok (Leaf l)
  | Node ty cs =>
      r <- traverse (fun kv => x <- s_getitem (snd kv) it ;; Ok (fst kv, x)) cs ;;
      Ok (Node (if is_named_tuple ty then "tuple"%string else ty) r)
  end.

(** ** Shape *)

(** [na.shape], _named_array_functions.py:568-583; the last case is
    [np.shape(na.ScalarArray(a))], where [__post_init__], scalars.py:889-900,
    refuses an array with dimensions but no axis names *)
Fixpoint s_shape {A} (s : struct A) : res shape :=
  match s with
  | Leaf (LVec v) => vec_shape v
  | Leaf (LNd n) => if ndim n =? 0 then Ok [] else Err ValueError
  | Leaf (LOther _) | Leaf (LClass _) => Ok []
  | Node _ cs => l <- traverse (fun kv => s_shape (snd kv)) cs ;; broadcast_shapes l
  end.

(** ** Packing *)

(** the elements of a scalar or vector array or number, _core.py:439-443 and 459 *)
Fixpoint pack_vec {A} (v : vec A) : list A :=
  match v with
  | Leaf (OpArr a) => ravel (s_nd a)
  | Leaf (OpNum x) => [x]
  | Node _ cs => flat_map (fun kv => pack_vec (snd kv)) cs
  end.

(** [pack], _core.py:437-464, for real numbers without units *)
Fixpoint pack {A} (s : struct A) : list A :=
  match s with
  | Leaf (LVec v) => pack_vec v
  | Leaf (LNd n) => ravel n
  | Leaf (LOther _) | Leaf (LClass _) => []
  | Node _ cs => flat_map (fun kv => pack (snd kv)) cs
  end.

(** ** Unpacking *)

(** a loop that carries the position along *)
Section TraverseAt.
Context {X Y : Type} (f : X -> nat -> res (Y * nat)).
Fixpoint traverse_at (l : list X) (pos : nat) : res (list Y * nat) :=
  match l with
  | [] => Ok ([], pos)
  | x :: l' => y <- f x pos ;; r <- traverse_at l' (snd y) ;; Ok (fst y :: fst r, snd r)
  end.
End TraverseAt.

Section Unpack.
Context {A : Type}.
Context (zero : A).             (* never read: the elements of an empty array *)
Context (cast : A -> A -> A).   (* [cast p x] is [type(p)(x)] *)
Context (flat : list A).

(** [flat[position : position + num]] and [np.reshape], which raises ValueError
    when there are not enough elements *)
Definition take_chunk (sh : list nat) (pos : nat) : res (nd A) :=
  let chunk := firstn (prod sh) (skipn pos flat) in
  if length chunk =? prod sh then Ok (of_list zero sh chunk) else Err ValueError.

(** [chunk[0]], which raises IndexError when the chunk is empty *)
Definition take_number (pos : nat) : res A :=
  match nth_error flat pos with Some y => Ok y | None => Err IndexError end.

(** _core.py:532-545 and 565-578 *)
Fixpoint unpack_vec (v : vec A) (pos : nat) : res (vec A * nat) :=
  match v with
  | Leaf (OpArr a) =>
      n <- take_chunk (nshape (s_nd a)) pos ;;
      Ok (Leaf (OpArr (mkS n (s_axes a))), pos + prod (nshape (s_nd a)))
  | Leaf (OpNum x) => y <- take_number pos ;; Ok (Leaf (OpNum (cast x y)), pos + 1)
  | Node ty cs =>
      r <- traverse_at (fun kv pos => y <- unpack_vec (snd kv) pos ;; Ok ((fst kv, fst y), snd y)) cs pos ;;
      Ok (Node ty (fst r), snd r)
  end.

(** [visit], _core.py:529-579.  For a NamedTuple, [type(p)(generator)] passes one
    argument to a class which wants one for every field: TypeError. *)
Fixpoint unpack_rec (p : struct A) (pos : nat) : res (struct A * nat) :=
  match p with
  | Leaf (LVec v) => y <- unpack_vec v pos ;; Ok (Leaf (LVec (fst y)), snd y)
  | Leaf (LNd n) =>
      if ndim n =? 0
      then y <- take_number pos ;; Ok (Leaf (LNd (scalar y)), pos + 1)
      else m <- take_chunk (nshape n) pos ;; Ok (Leaf (LNd m), pos + prod (nshape n))
  | Leaf l => Ok (Leaf l, pos)
  | Node ty cs =>
      r <- traverse_at (fun kv pos => y <- unpack_rec (snd kv) pos ;; Ok ((fst kv, fst y), snd y)) cs pos ;;
      if is_named_tuple ty then Err TypeError else Ok (Node ty (fst r), snd r)
  end.

(** [unpack], _core.py:522-586 *)
Definition unpack (p : struct A) : res (struct A) :=
  r <- unpack_rec p 0 ;;
  if snd r =? length flat then Ok (fst r) else Err ValueError.
End Unpack.
