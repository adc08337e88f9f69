(** C01: [na.broadcast_shapes] is the least common named shape. *)
From Coq Require Import String List Arith ZArith Bool Lia Permutation.
From Verif Require Import Base Numpy Shapes Scalar Spec ShapesFacts.
Import ListNotations.
Open Scope nat_scope.
Open Scope list_scope.
Open Scope string_scope.

(** It fails (with ValueError) exactly when two arguments disagree about an
    axis; otherwise the result has the names in order of first appearance, each
    with its common size. *)
Theorem C01_broadcast_shapes :
  forall l : list shape,
  Forall (fun s => NoDup (dkeys s)) l ->
  (conflict l /\ broadcast_shapes l = Err ValueError) \/
  (~ conflict l /\
   exists r, broadcast_shapes l = Ok r /\
     dkeys r = first_appearance (concat (map dkeys l)) /\
     forall ax n, In (ax, n) r <->
       (In ax (concat (map dkeys l)) /\ common_size (sizes_of l ax) n)).
Proof.
  intros l H. destruct (broadcast_shapes_total l H) as [[r E]|E].
  - right. split.
    + intros C. apply broadcast_shapes_conflict in C; [congruence|auto].
    + exists r. destruct (broadcast_shapes_ok l r H E) as (_ & K & S). auto.
  - left. split; auto. now apply broadcast_shapes_conflict.
Qed.
Print Assumptions C01_broadcast_shapes.

Example C01_ok :
  broadcast_shapes [[("x", 1); ("y", 3)]; [("z", 0); ("x", 2)]; [("y", 1)]]
  = Ok [("x", 2); ("y", 3); ("z", 0)].
Proof. reflexivity. Qed.

Example C01_fail :
  broadcast_shapes [[("x", 4); ("y", 3)]; [("z", 5); ("x", 2)]] = Err ValueError.
Proof. reflexivity. Qed.

(** The order of the arguments only matters for the order of the axes. *)
Theorem C01_order_irrelevant :
  forall l l' : list shape,
  Forall (fun s => NoDup (dkeys s)) l -> Permutation l l' ->
  match broadcast_shapes l, broadcast_shapes l' with
  | Ok a, Ok b => same_shape a b
  | Err e, Err e' => e = e'
  | _, _ => False
  end.
Proof. exact broadcast_shapes_perm. Qed.
Print Assumptions C01_order_irrelevant.

Example C01_order_example :
  broadcast_shapes [[("z", 0); ("x", 2)]; [("x", 1); ("y", 3)]]
  = Ok [("z", 0); ("x", 2); ("y", 3)] /\
  broadcast_shapes [[("x", 1); ("y", 3)]; [("z", 0); ("x", 2)]]
  = Ok [("x", 2); ("y", 3); ("z", 0)].
Proof. split; reflexivity. Qed.

(** Broadcasting groups first and then the results of the groups is the same as
    broadcasting everything at once. *)
Theorem C01_grouping_irrelevant :
  forall (ls : list (list shape)) (rs : list shape),
  Forall (Forall (fun s => NoDup (dkeys s))) ls ->
  Forall2 (fun l r => broadcast_shapes l = Ok r) ls rs ->
  match broadcast_shapes (concat ls), broadcast_shapes rs with
  | Ok a, Ok b => same_shape a b
  | Err e, Err e' => e = e'
  | _, _ => False
  end.
Proof. exact broadcast_shapes_groups. Qed.
Print Assumptions C01_grouping_irrelevant.

Theorem C01_grouping_failure :
  forall (ls : list (list shape)) (l : list shape),
  Forall (Forall (fun s => NoDup (dkeys s))) ls -> In l ls ->
  broadcast_shapes l = Err ValueError -> broadcast_shapes (concat ls) = Err ValueError.
Proof. exact broadcast_shapes_group_err. Qed.
Print Assumptions C01_grouping_failure.

Example C01_grouping_example :
  broadcast_shapes [[("x", 1)]; [("y", 3)]] = Ok [("x", 1); ("y", 3)] /\
  broadcast_shapes [[("x", 4)]; [("y", 1)]] = Ok [("x", 4); ("y", 1)] /\
  broadcast_shapes [[("x", 1); ("y", 3)]; [("x", 4); ("y", 1)]] = Ok [("x", 4); ("y", 3)].
Proof. repeat split. Qed.
