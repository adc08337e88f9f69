(** The vocabulary for vector arrays: a vector is observed through paths of
    component names. *)
From Coq Require Import Ascii String List Arith ZArith Bool Lia.
From Verif Require Import Base Numpy Shapes Scalar Vector Spec.
Import ListNotations.
Open Scope nat_scope.
Open Scope list_scope.

(** every leaf satisfies [P] and the names of the components of each vector are
    distinct *)
Inductive tree_ok {L} (P : L -> Prop) : tree L -> Prop :=
| leaf_ok l : P l -> tree_ok P (Leaf l)
| node_ok ty cs : NoDup (map fst cs) -> (forall c x, In (c, x) cs -> tree_ok P x) ->
                  tree_ok P (Node ty cs).

Definition vec_wf {A} (v : vec A) : Prop := tree_ok op_wf v.

(** the leaf at the end of a path *)
Fixpoint leaf_at {L} (t : tree L) (p : list string) : option L :=
  match t, p with
  | Leaf l, [] => Some l
  | Node _ cs, c :: p' => match dget cs c with Some x => leaf_at x p' | None => None end
  | _, _ => None
  end.

(** the leaf in charge of a path: a scalar stands for all of its components *)
Fixpoint reaches {L} (t : tree L) (p : list string) : option L :=
  match t, p with
  | Leaf l, _ => Some l
  | Node _ cs, c :: p' => match dget cs c with Some x => reaches x p' | None => None end
  | Node _ _, [] => None
  end.

(** the vector at the end of a path: its type and the names of its components *)
Fixpoint kind {L} (t : tree L) (p : list string) : option (string * list string) :=
  match t, p with
  | Node ty cs, [] => Some (ty, map fst cs)
  | Node _ cs, c :: p' => match dget cs c with Some x => kind x p' | None => None end
  | Leaf _, _ => None
  end.

(** the same nesting with the same types and names *)
Definition same_kind {L M} (t : tree L) (u : tree M) : Prop :=
  (forall p, kind t p = kind u p) /\ (forall p, leaf_at t p = None <-> leaf_at u p = None).

(** vectors of the same type, at every level, have the same component names *)
Definition alike {L M} (t : tree L) (u : tree M) : Prop :=
  forall p ty names ty' names', kind t p = Some (ty, names) -> kind u p = Some (ty', names') ->
    ty = ty' /\ forall c, In c names <-> In c names'.

(** the operation [f] on scalar arrays or numbers gives [o] *)
Definition elementwise {A B} (f : list A -> B) (os : list (operand A)) (o : operand B) : Prop :=
  op_wf o /\
  broadcast_shapes (op_shapes os) = Ok (op_shape o) /\
  (forall e, inside e (op_shape o) -> op_at o e = f (map (fun x => op_at x e) os)) /\
  ((exists y, o = OpNum y) <-> forall x, In x os -> exists y, x = OpNum y).

(** all the leaves of a vector, in order *)
Fixpoint leaves {L} (t : tree L) : list L :=
  match t with
  | Leaf l => [l]
  | Node _ cs => flat_map (fun kv => leaves (snd kv)) cs
  end.

(** the path of every leaf, in order *)
Fixpoint paths {L} (t : tree L) : list (list string) :=
  match t with
  | Leaf _ => [[]]
  | Node _ cs => flat_map (fun kv => map (cons (fst kv)) (paths (snd kv))) cs
  end.

(** the indices that a dictionary of indices gives to the leaf at a path *)
Definition items_at {L} (it : dict (tree L)) (p : list string) (d : dict L) : Prop :=
  Forall2 (fun kv ki => fst ki = fst kv /\ reaches (snd kv) p = Some (snd ki)) it d.

(** a name without a dot *)
Definition dotless (c : string) : Prop := ~ In "."%char (list_ascii_of_string c).

Inductive dotless_names {L} : tree L -> Prop :=
| dl_leaf l : dotless_names (Leaf l)
| dl_node ty cs : (forall c x, In (c, x) cs -> dotless c /\ dotless_names x) -> dotless_names (Node ty cs).

(** the first result that is there *)
Fixpoint first_some {X} (l : list (option X)) : option X :=
  match l with
  | [] => None
  | Some x :: _ => Some x
  | None :: l' => first_some l'
  end.

Definition pairwise_alike {L} (l : list (tree L)) : Prop :=
  forall v v', In v l -> In v' l -> alike v v'.

(** [t] is a scalar, or has the type and the components of [v] *)
Definition suits {L M} (v : tree L) (t : tree M) : Prop :=
  alike v t /\ forall p, leaf_at v p <> None -> reaches t p <> None.

Definition items_suit {L M} (v : tree L) (it : dict (tree M)) : Prop :=
  forall kv, In kv it -> suits v (snd kv).

(** every leaf of [r] is the corresponding leaf of [v] indexed by its own
    indices; plain numbers stay *)
Definition indexed {A} (v r : vec A) (it : dict (tree item)) : Prop :=
  forall p, match leaf_at v p with
            | Some (OpNum x) => leaf_at r p = Some (OpNum x)
            | Some (OpArr a) => exists d b, items_at it p d /\ getitem a d = Ok b /\ leaf_at r p = Some (OpArr b)
            | None => leaf_at r p = None
            end.

(** [b] holds the elements of [o] selected by the mask, [l] being the list of
    the positions where the mask is true *)
Definition masked {A} (m : sarr bool) (l : list (list nat)) (o : operand A) (b : sarr A) : Prop :=
  wf b /\
  In (mask_axis (s_axes m), length l) (sshape b) /\
  (forall ax n, In (ax, n) (op_shape o) -> ~ In ax (s_axes m) -> n = 1 \/ In (ax, n) (sshape b)) /\
  (forall e, inside e (sshape b) ->
     exists e', at_ m e' = true /\
       nth_error l (e (mask_axis (s_axes m))) = Some (map e' (s_axes m)) /\
       (forall ax, ~ In ax (s_axes m) -> e' ax = e ax) /\
       at_ b e = op_at o e').

(** every leaf has received its own part of the value at its own indices *)
Definition assigned {A} (v r : vec A) (it : dict (tree item)) (value : vec A) : Prop :=
  forall p, match leaf_at v p with
            | Some (OpNum _) => False
            | Some (OpArr a) => exists d x b, items_at it p d /\ reaches value p = Some x /\
                setitem a d x = Ok b /\ leaf_at r p = Some (OpArr b)
            | None => leaf_at r p = None
            end.

(** the same index for every component *)
Definition plain {L} (d : dict L) : dict (tree L) := map (fun kv => (fst kv, Leaf (snd kv))) d.
