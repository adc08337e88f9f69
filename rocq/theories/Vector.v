(** Model of the vector arrays (named_arrays/_vectors/vectors.py and
    named_arrays/_vectors/cartesian/): a vector is a tree whose leaves are
    scalar arrays or plain numbers. *)
From Coq Require Import String List Arith ZArith Bool Lia.
From Verif Require Import Base Numpy Shapes Scalar Elementwise.
Import ListNotations.
Open Scope nat_scope.
Open Scope list_scope.

(** A vector array, [AbstractVectorArray], vectors.py:66-80: its
    [type_abstract] and its components in order ([components], vectors.py:607);
    a component is again a vector or a leaf.  The same trees with other leaves
    describe vectors of indices. *)
Inductive tree (L : Type) : Type :=
| Leaf (l : L)
| Node (type : string) (components : list (string * tree L)).
Arguments Leaf {L} _.
Arguments Node {L} _ _.

Notation vec A := (tree (operand A)).

(** a loop over the components which stops at the first exception *)
Section Traverse.
Context {A B : Type} (f : A -> res B).
Fixpoint traverse (l : list A) : res (list B) :=
  match l with
  | [] => Ok []
  | x :: l' => y <- f x ;; ys <- traverse l' ;; Ok (y :: ys)
  end.
End Traverse.

(** apply a function to every component, keeping the names *)
Definition on_components {L M} (f : string -> tree L -> res M) (cs : list (string * tree L))
  : res (list (string * M)) :=
  traverse (fun kv => r <- f (fst kv) (snd kv) ;; Ok (fst kv, r)) cs.

(** nesting depth, only used to bound recursions *)
Fixpoint depth {L} (t : tree L) : nat :=
  match t with
  | Leaf _ => 0
  | Node _ cs => S (list_max (map (fun kv => depth (snd kv)) cs))
  end.

(** [isinstance(x, AbstractVectorArray)] and [x.type_abstract == type] for the
    first vector among the arguments *)
Definition first_node {L} (l : list (tree L)) : option (string * list (string * tree L)) :=
  match flat_map (fun t => match t with Node ty cs => [(ty, cs)] | Leaf _ => [] end) l with
  | [] => None
  | p :: _ => Some p
  end.

Definition leaves_of {L} (l : list (tree L)) : list L :=
  flat_map (fun t => match t with Leaf x => [x] | Node _ _ => [] end) l.

(** [inp.type_abstract == self.type_abstract], or a scalar or a number *)
Definition accepts {L} (ty : string) (t : tree L) : bool :=
  match t with Leaf _ => true | Node ty' _ => String.eqb ty' ty end.

(** [components_inp[c]], vectors_cartesian.py:106-117: a scalar is its own
    component for every name ([from_scalar], vectors.py:547-565) *)
Definition component {L} (c : string) (t : tree L) : res (tree L) :=
  match t with
  | Leaf _ => Ok t
  | Node _ cs => match dget cs c with Some x => Ok x | None => Err KeyError end
  end.

(** ** Shape *)

(** [AbstractExplicitVectorArray.shape], vectors.py:619-621, with [na.shape],
    _named_array_functions.py:568-583 *)
Fixpoint vec_shape {A} (v : vec A) : res shape :=
  match v with
  | Leaf (OpArr a) => Ok (sshape a)
  | Leaf (OpNum _) => Ok []
  | Node _ cs => l <- traverse (fun kv => vec_shape (snd kv)) cs ;; broadcast_shapes l
  end.

(** ** Elementwise operations *)

Definition is_num {A} (o : operand A) : bool := match o with OpNum _ => true | OpArr _ => false end.

Definition nums {A} (l : list (operand A)) : list A :=
  flat_map (fun o => match o with OpNum x => [x] | OpArr _ => [] end) l.

(** a ufunc applied to scalar arrays and numbers: numpy itself when there is no
    array, otherwise [AbstractScalarArray.__array_ufunc__] *)
Definition op_ufunc {A B} (f : list A -> B) (l : list (operand A)) : res (operand B) :=
  if forallb is_num l then Ok (OpNum (f (nums l)))
  else r <- array_ufunc f l ;; Ok (OpArr r).

(** [AbstractCartesianVectorArray.__array_ufunc__], vectors_cartesian.py:87-170,
    for functions with one output, without [out] and [where].  numpy asks the
    arguments from left to right, the scalar arrays decline, so the first vector
    decides; when a vector of another type is among the arguments every
    argument declines and numpy raises TypeError. *)
Fixpoint vec_ufunc_rec {A B} (fuel : nat) (f : list A -> B) (inputs : list (vec A)) : res (vec B) :=
  match first_node inputs with
  | None => o <- op_ufunc f (leaves_of inputs) ;; Ok (Leaf o)
  | Some (ty, cs) =>
      match fuel with
      | 0 => Err TypeError            (* not reached, see [vec_ufunc] *)
      | S fuel =>
          if forallb (accepts ty) inputs
          then r <- on_components (fun c _ =>
                      ins <- mapM (component c) inputs ;; vec_ufunc_rec fuel f ins) cs ;;
               Ok (Node ty r)
          else Err TypeError
      end
  end.

Definition vec_ufunc {A B} (f : list A -> B) (inputs : list (vec A)) : res (vec B) :=
  vec_ufunc_rec (list_max (map depth inputs)) f inputs.

(** ** Broadcasting *)

(** [na.broadcast_to] of a scalar array or number *)
Definition op_broadcast_to {A} (o : operand A) (sh : shape) : res (operand A) :=
  r <- na_broadcast_to (normalize o) sh false ;; Ok (OpArr r).

(** [broadcast_to], vector_named_array_functions.py:185-203, with [append=False] *)
Fixpoint vec_broadcast_to {A} (v : vec A) (sh : shape) : res (vec A) :=
  match v with
  | Leaf o => r <- op_broadcast_to o sh ;; Ok (Leaf r)
  | Node ty cs =>
      r <- traverse (fun kv => x <- vec_broadcast_to (snd kv) sh ;; Ok (fst kv, x)) cs ;;
      Ok (Node ty r)
  end.

(** ** Indexing *)

(** [{ax: item[ax].components[c] for ax in item}], vectors.py:331-333 *)
Definition component_items {L} (c : string) (it : dict (tree L)) : res (dict (tree L)) :=
  mapM (fun kv => x <- component c (snd kv) ;; Ok (fst kv, x)) it.

Definition leaf_items {L} (it : dict (tree L)) : dict L :=
  flat_map (fun kv => match snd kv with Leaf i => [(fst kv, i)] | Node _ _ => [] end) it.

(** [_getitem] with a dict, vectors.py:304-347, together with [__getitem__],
    _core.py:1052-1073, and [_getitem_reversed], vectors.py:349-361.

    An item is an index or a vector of indices.  A plain number stays as it is.
    A scalar array is indexed by [AbstractScalarArray._getitem], which declines
    when a vector of indices is given for one of its axes.  A vector declines
    when a vector of indices of another type is given.  After a refusal the
    first vector of indices takes over: the array becomes every component of a
    vector of that type. *)
Fixpoint vec_getitem_rec {A} (fuel : nat) (v : vec A) (it : dict (tree item)) : res (vec A) :=
  let go ty cs :=
    match fuel with
    | 0 => Err ValueError            (* not reached, see [vec_getitem] *)
    | S fuel =>
        r <- on_components (fun c x =>
               it_c <- component_items c it ;; vec_getitem_rec fuel x it_c) cs ;;
        Ok (Node ty r)
    end in
  let reversed :=
    match first_node (map snd it) with
    | None => Err ValueError
    | Some (ty, cs) =>
        if forallb (accepts ty) (map snd it)
        then go ty (map (fun kv => (fst kv, v)) cs)
        else Err ValueError
    end in
  match v with
  | Leaf (OpNum _) => Ok v
  | Leaf (OpArr a) =>
      let here := filter (fun kv => smem (fst kv) (s_axes a)) it in
      match first_node (map snd here) with
      | None => r <- getitem a (leaf_items here) ;; Ok (Leaf (OpArr r))
      | Some _ => reversed
      end
  | Node ty cs =>
      if forallb (accepts ty) (map snd it) then go ty cs else reversed
  end.

Definition vec_getitem {A} (v : vec A) (it : dict (tree item)) : res (vec A) :=
  vec_getitem_rec (depth v + list_max (map depth (map snd it))) v it.

(** the mask that [_getitem] uses, vectors.py:292-302: a vector of masks of the
    same type as the array is reduced to the conjunction of its components.
    Masks of another vector type and masks whose components are vectors are not
    modelled and treated as errors. *)
Definition mask_of {A} (v : vec A) (m : vec bool) : res (sarr bool) :=
  match m with
  | Leaf o => Ok (normalize o)
  | Node ty cs =>
      if negb (accepts ty v) then Err ValueError
      else
        r <- fold_left (fun acc kv => a <- acc ;; vec_ufunc (forallb (fun b => b)) [a; snd kv])
                       cs (Ok (Leaf (OpNum true))) ;;
        match r with Leaf o => Ok (normalize o) | Node _ _ => Err TypeError end
  end.

(** [_getitem] with a boolean array, vectors.py:284-302, 341-347: every component
    is broadcast against the axes of the mask, then indexed *)
Fixpoint vec_mask_rec {A} (fuel : nat) (v : vec A) (m : sarr bool) : res (vec A) :=
  match v with
  | Leaf o => r <- getitem_mask (normalize o) m ;; Ok (Leaf (OpArr r))
  | Node ty cs =>
      match fuel with
      | 0 => Err ValueError            (* not reached, see [vec_getitem_mask] *)
      | S fuel =>
          sh <- vec_shape v ;;
          let base := flat_map (fun ax => match dget sh ax with Some n => [(ax, n)] | None => [] end)
                               (s_axes m) in
          r <- on_components (fun _ x =>
                 shx <- vec_shape x ;;
                 shb <- broadcast_shapes [shx; base] ;;
                 b <- vec_broadcast_to x shb ;;
                 vec_mask_rec fuel b m) cs ;;
          Ok (Node ty r)
      end
  end.

Definition vec_getitem_mask {A} (v : vec A) (m : vec bool) : res (vec A) :=
  mask <- mask_of v m ;; vec_mask_rec (depth v) v mask.

(** ** Assignment *)

(** the outcome of an assignment: the array afterwards, and the exception if
    one was raised *)
Definition outcome (V : Type) := (V * option err)%type.

(** [__setitem__] of vectors with a dict, vectors.py:643-736.  The components
    are assigned one after the other; when one raises, those before it have
    already been changed.  Assigning to a component that is a plain number
    raises TypeError.  [lift] collects the outcomes of the components. *)
Fixpoint set_components {A} (f : string -> vec A -> outcome (vec A)) (cs : list (string * vec A))
  : outcome (list (string * vec A)) :=
  match cs with
  | [] => ([], None)
  | (c, x) :: cs' =>
      match f c x with
      | (x', Some e) => ((c, x') :: cs', Some e)
      | (x', None) => let '(r, e) := set_components f cs' in ((c, x') :: r, e)
      end
  end.

Fixpoint vec_setitem_rec {A} (fuel : nat) (v : vec A) (it : dict (tree item)) (value : vec A)
  : outcome (vec A) :=
  match v with
  | Leaf (OpNum _) => (v, Some TypeError)
  | Leaf (OpArr a) =>
      match first_node (map snd it), value with
      | None, Leaf x =>
          match setitem a (leaf_items it) x with
          | Ok r => (Leaf (OpArr r), None)
          | Err e => (v, Some e)
          end
      | _, _ => (v, Some TypeError)
      end
  | Node ty cs =>
      if negb (forallb (accepts ty) (map snd it) && accepts ty value) then (v, Some TypeError)
      else match fuel with
      | 0 => (v, Some TypeError)            (* not reached, see [vec_setitem] *)
      | S fuel =>
          let '(r, e) := set_components (fun c x =>
            match component_items c it with
            | Err e => (x, Some e)
            | Ok it_c => match component c value with
                         | Err e => (x, Some e)
                         | Ok value_c => vec_setitem_rec fuel x it_c value_c
                         end
            end) cs in
          (Node ty r, e)
      end
  end.

Definition vec_setitem {A} (v : vec A) (it : dict (tree item)) (value : vec A) : outcome (vec A) :=
  vec_setitem_rec (depth v) v it value.

(** ** Conversion to a flat vector *)

(** a dict display or a sequence of assignments [d[k] = v] *)
Definition dict_of {V} (l : list (string * V)) : dict V :=
  fold_left (fun d kv => dset d (fst kv) (snd kv)) l [].

(** [cartesian_nd], vectors.py:107-123: the components of the flat vector *)
Fixpoint cartesian_nd {L} (v : tree L) : dict L :=
  match v with
  | Leaf _ => []            (* a leaf is not a vector *)
  | Node _ cs =>
      dict_of (flat_map (fun kv =>
        match snd kv with
        | Leaf l => [(fst kv, l)]
        | Node _ _ => map (fun p => (fst kv ++ "." ++ fst p, snd p)%string) (cartesian_nd (snd kv))
        end) cs)
  end.

(** [k.startswith(p)] and [k[len(p):]] *)
Definition starts_with (p k : string) : bool := String.prefix p k.
Definition drop (n : nat) (k : string) : string := String.substring n (String.length k - n) k.

(** [from_cartesian_nd], vectors.py:567-606, with [like] *)
Fixpoint from_cartesian_nd {L} (nd : dict L) (like : tree L) : res (tree L) :=
  match like with
  | Leaf _ => Err TypeError            (* [like] is a vector *)
  | Node ty cs =>
      r <- traverse (fun kv =>
        x <- match snd kv with
             | Leaf _ => match dget nd (fst kv) with Some l => Ok (Leaf l) | None => Err KeyError end
             | Node _ _ =>
                 let p := (fst kv ++ ".")%string in
                 from_cartesian_nd
                   (map (fun e => (drop (String.length p) (fst e), snd e))
                        (filter (fun e => starts_with p (fst e)) nd)) (snd kv)
             end ;;
        Ok (fst kv, x)) cs ;;
      Ok (Node ty r)
  end.
