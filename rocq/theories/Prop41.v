(** C41: the cell areas of a two-dimensional grid are signed polygon areas. *)
From Coq Require Import Ascii String List Arith ZArith QArith Qcanon Bool Lia.
From Verif Require Import Base Numpy Shapes Scalar Elementwise Vector Matrix Geometry Spec SpecDerived SpecVector SpecMatrix SpecGeometry MatrixLaws GeometryFacts.
Import ListNotations.
Open Scope nat_scope.
Open Scope list_scope.

(** The result has one element for every cell, the axes of the cells are one
    shorter, and the element is the signed area of the polygon through the four
    corners of the cell in circular order. *)
Theorem C41_area :
  forall (F : Type) (K : arith F), is_field K ->
  forall (ty : string) (x y : operand F) (sh : shape) (a1 a2 : string),
  op_wf x -> op_wf y -> vec_shape (xy ty x y) = Ok sh ->
  In a1 (dkeys sh) -> In a2 (dkeys sh) -> a1 <> a2 ->
  exists r, volume_cell_2d K (xy ty x y) (Some [a1; a2]) = Ok (OpArr r) /\ wf r /\
    same_shape (sshape r) (shrunk sh [a1; a2]) /\
    forall e, inside e (sshape r) -> at_ r e = polygon_area K (map (point2 x y) (around a1 a2 e)).
Proof. exact @area_value. Qed.
Print Assumptions C41_area.

(** Without an axis argument both axes of a two-dimensional array are taken;
    other arguments are refused. *)
Theorem C41_axis :
  forall (F : Type) (K : arith F) (v : vec F) (sh : shape), vec_shape v = Ok sh ->
  (length sh = 2 -> volume_cell_2d K v None = volume_cell_2d K v (Some (dkeys sh))) /\
  (length sh <> 2 -> volume_cell_2d K v None = Err ValueError) /\
  (forall l, (exists ax, In ax l /\ ~ In ax (dkeys sh)) \/ length l <> 2 -> volume_cell_2d K v (Some l) = Err ValueError).
Proof. exact @area_axis. Qed.
Print Assumptions C41_axis.

(** The cell areas of a grid sum to the area of its boundary polygon. *)
Theorem C41_grid :
  forall (F : Type) (K : arith F), is_field K ->
  forall (ty : string) (x y : operand F) (sh : shape) (a1 a2 : string) (n m : nat) (r : sarr F),
  op_wf x -> op_wf y -> vec_shape (xy ty x y) = Ok sh ->
  In (a1, S n) sh -> In (a2, S m) sh -> a1 <> a2 ->
  volume_cell_2d K (xy ty x y) (Some [a1; a2]) = Ok (OpArr r) ->
  forall e, inside_but e sh [a1; a2] ->
  sum_to K n (fun i => sum_to K m (fun j => at_ r (set_env (set_env e a1 i) a2 j))) =
  polygon_area K (map (fun ij => point2 x y (set_env (set_env e a1 (fst ij)) a2 (snd ij))) (boundary n m)).
Proof. exact @area_grid. Qed.
Print Assumptions C41_grid.

(** Moving every cell, by an amount that may differ from one grid to the next but
    not within a grid, changes no area. *)
Theorem C41_translation :
  forall (F : Type) (K : arith F), is_field K ->
  forall (ty ty' : string) (x y x' y' : operand F) (t : env -> F * F) (sh : shape) (a1 a2 : string) (r r' : sarr F),
  op_wf x -> op_wf y -> op_wf x' -> op_wf y' ->
  vec_shape (xy ty x y) = Ok sh -> vec_shape (xy ty' x' y') = Ok sh -> In a1 (dkeys sh) -> In a2 (dkeys sh) -> a1 <> a2 ->
  (forall e, t (next a1 e) = t e) -> (forall e, t (next a2 e) = t e) ->
  (forall e, inside e sh -> op_at x' e = plus K (op_at x e) (fst (t e)) /\ op_at y' e = plus K (op_at y e) (snd (t e))) ->
  volume_cell_2d K (xy ty x y) (Some [a1; a2]) = Ok (OpArr r) -> volume_cell_2d K (xy ty' x' y') (Some [a1; a2]) = Ok (OpArr r') ->
  forall e, inside e (sshape r) -> at_ r' e = at_ r e.
Proof. exact @area_translation. Qed.
Print Assumptions C41_translation.

(** A linear map multiplies the areas by its determinant. *)
Theorem C41_linear :
  forall (F : Type) (K : arith F), is_field K ->
  forall (ty ty' : string) (x y x' y' : operand F) (a b c d : F) (sh : shape) (a1 a2 : string) (r r' : sarr F),
  op_wf x -> op_wf y -> op_wf x' -> op_wf y' ->
  vec_shape (xy ty x y) = Ok sh -> vec_shape (xy ty' x' y') = Ok sh -> In a1 (dkeys sh) -> In a2 (dkeys sh) -> a1 <> a2 ->
  (forall e, inside e sh -> op_at x' e = plus K (times K a (op_at x e)) (times K b (op_at y e)) /\
                            op_at y' e = plus K (times K c (op_at x e)) (times K d (op_at y e))) ->
  volume_cell_2d K (xy ty x y) (Some [a1; a2]) = Ok (OpArr r) -> volume_cell_2d K (xy ty' x' y') (Some [a1; a2]) = Ok (OpArr r') ->
  forall e, inside e (sshape r) -> at_ r' e = times K (minus K (times K a d) (times K b c)) (at_ r e).
Proof. exact @area_linear_map. Qed.
Print Assumptions C41_linear.

(** A cell that is a parallelogram has the area of its two sides. *)
Theorem C41_parallelogram :
  forall (F : Type) (K : arith F), is_field K ->
  forall (ty : string) (x y : operand F) (sh : shape) (a1 a2 : string) (r : sarr F),
  op_wf x -> op_wf y -> vec_shape (xy ty x y) = Ok sh ->
  In a1 (dkeys sh) -> In a2 (dkeys sh) -> a1 <> a2 -> two K <> zero K ->
  volume_cell_2d K (xy ty x y) (Some [a1; a2]) = Ok (OpArr r) ->
  forall e u v, inside e (sshape r) ->
  point2 x y (next a1 e) = shift2 K u (point2 x y e) -> point2 x y (next a2 e) = shift2 K v (point2 x y e) ->
  point2 x y (next a2 (next a1 e)) = shift2 K v (shift2 K u (point2 x y e)) ->
  at_ r e = wedge K u v.
Proof. exact @area_parallelogram. Qed.
Print Assumptions C41_parallelogram.

(** The area of a polygon is the sum of the areas of the two parts cut by a
    diagonal; a triangle has half the area of the parallelogram of its sides. *)
Theorem C41_split :
  forall (F : Type) (K : arith F), is_field K ->
  forall (p : F * F) (l : list (F * F)) (q : F * F) (l' : list (F * F)),
  polygon_area K (p :: l ++ q :: l') = plus K (polygon_area K (p :: l ++ [q])) (polygon_area K (q :: l' ++ [p])).
Proof. exact @area_split. Qed.
Print Assumptions C41_split.

Theorem C41_triangle :
  forall (F : Type) (K : arith F), is_field K -> forall p u v : F * F,
  polygon_area K [p; shift2 K u p; shift2 K v p] = over K (wedge K u v) (two K).
Proof. exact @triangle_area. Qed.
Print Assumptions C41_triangle.

Open Scope string_scope.

Definition grid2 (a b : string) (n m : nat) (l : list Z) : operand Qc :=
  OpArr (mkS (of_list (Q2Qc 0) [n; m] (map (fun z => Q2Qc (inject_Z z)) l)) [a; b]).
Definition line1 (a : string) (l : list Z) : operand Qc :=
  OpArr (mkS (of_list (Q2Qc 0) [length l] (map (fun z => Q2Qc (inject_Z z)) l)) [a]).
Definition shows (r : res (operand Qc)) : option (shape * list Q) :=
  match r with
  | Ok (OpArr a) => Some (sshape a, map this (ravel (s_nd a)))
  | Ok (OpNum x) => Some ([], [this x])
  | Err _ => None
  end.

(** a skewed grid of 2 by 1 cells, stored in different axis orders *)
Definition ex_x : operand Qc := grid2 "i" "j" 3 2 [0; 1; 2; 3; 5; 7]%Z.
Definition ex_y : operand Qc := grid2 "j" "i" 2 3 [0; 0; 1; 2; 3; 3]%Z.

Example ex_area : shows (volume_cell_2d qK (xy "v" ex_x ex_y) (Some ["i"; "j"])) = Some ([("i", 2); ("j", 1)], [9 # 2; 8]%Q).
Proof. vm_compute. reflexivity. Qed.

(** the other circular direction *)
Example ex_area_swapped : shows (volume_cell_2d qK (xy "v" ex_x ex_y) (Some ["j"; "i"])) = Some ([("i", 2); ("j", 1)], [-9 # 2; -8]%Q).
Proof. vm_compute. reflexivity. Qed.

(** the boundary polygon *)
Example ex_boundary : this (polygon_area qK (map (fun ij => point2 ex_x ex_y (set_env (set_env (fun _ => 0) "i" (fst ij)) "j" (snd ij))) (boundary 2 1))) = (25 # 2)%Q.
Proof. vm_compute. reflexivity. Qed.

(** one-dimensional components span a rectangular grid; the unit square has area 1 *)
Example ex_square : shows (volume_cell_2d qK (xy "v" (line1 "i" [0; 1; 3]%Z) (line1 "j" [0; 1; 5]%Z)) None) =
  Some ([("i", 2); ("j", 2)], [1; 4; 2; 8]%Q).
Proof. vm_compute. reflexivity. Qed.

Example ex_hyps : op_wf ex_x /\ op_wf ex_y /\ vec_shape (xy "v" ex_x ex_y) = Ok [("i", 3); ("j", 2)] /\
  In "i" (dkeys [("i", 3); ("j", 2)]) /\ In "j" (dkeys [("i", 3); ("j", 2)]) /\ "i" <> "j" /\
  inside_but (fun _ => 7) [("i", 3); ("j", 2)] ["i"; "j"] /\ two qK <> zero qK.
Proof.
  repeat split; try (repeat constructor; simpl; intuition discriminate); try (simpl; tauto); try discriminate.
  - intros ax n [H|[H|[]]] Q; injection H as <- <-; exfalso; apply Q; simpl; tauto.
Qed.

Example ex_refused : shows (volume_cell_2d qK (xy "v" ex_x ex_y) (Some ["i"; "k"])) = None /\
  shows (volume_cell_2d qK (xy "v" ex_x ex_y) (Some ["i"])) = None.
Proof. split; reflexivity. Qed.
