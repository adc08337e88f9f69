(** C74: [na.geometry.point_in_polygon] tests every point against the polygon of the
    same labels. *)
From Coq Require Import String List Arith ZArith Bool Lia.
From Verif Require Import Base BaseFacts Numpy Shapes Scalar Elementwise Polygon
  Spec SpecNumeric SpecInterp PolygonFacts.
Import ListNotations.
Open Scope nat_scope.
Open Scope list_scope.

(** The result has the common shape without the axis of the vertices.  At every
    position it is the test of the point with the vertices of that position, in their
    order along the axis. *)
Theorem C74_point_in_polygon :
  forall (A B : Type) (contains : A -> A -> list A -> list A -> B) (x y vx vy : operand A) (axis : string) (T : shape) (n : nat),
  op_wf x -> op_wf y -> op_wf vx -> op_wf vy ->
  broadcast_shapes [op_shape x; op_shape y; op_shape vx; op_shape vy] = Ok T -> In (axis, n) T -> n <> 0 ->
  ~ In axis (dkeys (op_shape x)) -> ~ In axis (dkeys (op_shape y)) ->
  exists r, na_point_in_polygon contains x y vx vy axis = Ok r /\ wf r /\ sshape r = without T [axis] /\
    forall e, inside e (sshape r) ->
      at_ r e = contains (op_at x e) (op_at y e) (samples vx axis n e) (samples vy axis n e).
Proof. exact (fun A B => polygon_ok). Qed.
Print Assumptions C74_point_in_polygon.

(** The order in which the axes of the arguments are stored does not matter. *)
Theorem C74_order :
  forall (A B : Type) (contains : A -> A -> list A -> list A -> B) (x y vx vy x' y' vx' vy' : operand A) (axis : string)
         (T : shape) (n : nat),
  op_wf x -> op_wf y -> op_wf vx -> op_wf vy -> op_wf x' -> op_wf y' -> op_wf vx' -> op_wf vy' ->
  same_operand x x' -> same_operand y y' -> same_operand vx vx' -> same_operand vy vy' ->
  broadcast_shapes [op_shape x; op_shape y; op_shape vx; op_shape vy] = Ok T -> In (axis, n) T -> n <> 0 ->
  ~ In axis (dkeys (op_shape x)) -> ~ In axis (dkeys (op_shape y)) ->
  exists r r', na_point_in_polygon contains x y vx vy axis = Ok r /\
    na_point_in_polygon contains x' y' vx' vy' axis = Ok r' /\ same_array r r'.
Proof. exact (fun A B => polygon_order). Qed.
Print Assumptions C74_order.

(** Polygons without the axis of the vertices, points with that axis, and polygons
    without vertices are refused. *)
Theorem C74_missing :
  forall (A B : Type) (contains : A -> A -> list A -> list A -> B) (x y vx vy : operand A) (axis : string) (T : shape),
  broadcast_shapes [op_shape x; op_shape y; op_shape vx; op_shape vy] = Ok T -> ~ In axis (dkeys T) ->
  na_point_in_polygon contains x y vx vy axis = Err KeyError.
Proof. exact (fun A B => polygon_missing). Qed.
Print Assumptions C74_missing.

Theorem C74_vertex_axis :
  forall (A B : Type) (contains : A -> A -> list A -> list A -> B) (x y vx vy : operand A) (axis : string),
  op_wf x -> op_wf y -> op_wf vx -> op_wf vy ->
  In axis (dkeys (op_shape x)) \/ In axis (dkeys (op_shape y)) ->
  na_point_in_polygon contains x y vx vy axis = Err ValueError.
Proof. exact (fun A B => polygon_vertex_axis). Qed.
Print Assumptions C74_vertex_axis.

Theorem C74_no_vertices :
  forall (A B : Type) (contains : A -> A -> list A -> list A -> B) (x y vx vy : operand A) (axis : string) (T : shape),
  op_wf x -> op_wf y -> op_wf vx -> op_wf vy ->
  broadcast_shapes [op_shape x; op_shape y; op_shape vx; op_shape vy] = Ok T -> In (axis, 0) T ->
  na_point_in_polygon contains x y vx vy axis = Err ValueError.
Proof. exact (fun A B => polygon_no_vertices). Qed.
Print Assumptions C74_no_vertices.

(** ** Examples *)

Open Scope string_scope.

Definition show {A} (r : res (sarr A)) : res (list string * list nat * list A) :=
  match r with Ok a => Ok (s_axes a, nshape (s_nd a), ravel (s_nd a)) | Err e => Err e end.

(** the point and the vertices that are tested *)
Definition tested (x y : Z) (vx vy : list Z) : Z * Z * list Z * list Z := (x, y, vx, vy).

Definition xs : operand Z := OpArr (mkS (of_list 0%Z [2] [1; 2]%Z) ["p"]).
Definition vxs : operand Z := OpArr (mkS (of_list 0%Z [3; 2] [10; 20; 11; 21; 12; 22]%Z) ["v"; "q"]).
Definition vys : operand Z := OpArr (mkS (of_list 0%Z [3] [30; 31; 32]%Z) ["v"]).

Example ex_polygons :
  show (na_point_in_polygon tested xs (OpNum 5%Z) vxs vys "v")
  = Ok (["p"; "q"], [2; 2],
        [(1, 5, [10; 11; 12], [30; 31; 32]); (1, 5, [20; 21; 22], [30; 31; 32]);
         (2, 5, [10; 11; 12], [30; 31; 32]); (2, 5, [20; 21; 22], [30; 31; 32])]%Z).
Proof. vm_compute. reflexivity. Qed.

Example ex_hypotheses :
  broadcast_shapes [op_shape xs; op_shape (OpNum 5%Z); op_shape vxs; op_shape vys] = Ok [("p", 2); ("v", 3); ("q", 2)] /\
  ~ In "v" (dkeys (op_shape xs)) /\ ~ In "v" (dkeys (op_shape (OpNum 5%Z))).
Proof. repeat split; vm_compute; intuition discriminate. Qed.

Example ex_refused :
  show (na_point_in_polygon tested xs (OpNum 5%Z) vxs vys "p") = Err ValueError /\
  show (na_point_in_polygon tested xs (OpNum 5%Z) vxs vys "z") = Err KeyError.
Proof. split; vm_compute; reflexivity. Qed.
