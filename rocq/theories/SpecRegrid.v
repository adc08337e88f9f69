(** Specification vocabulary for regridding. *)
From Coq Require Import String List Arith ZArith QArith Qcanon Bool Lia.
From Verif Require Import Base Numpy Shapes Scalar Spec SpecNumeric SpecHist.
Import ListNotations.
Open Scope nat_scope.
Open Scope list_scope.

(** a list of weights for every position along the other axes: input cell, output
    cell, factor *)
Definition weights_array : Type := sarr (list (nat * nat * Qc)).

(** the resampled part of a grid: the axes that the weights do not have *)
Definition grid_cells (W : weights_array) (sh : shape) : shape := without sh (s_axes W).

(** the number of the cell at [e], and the cell with the number [k] *)
Definition cell_number (c : shape) (e : env) : nat := row_major (dvals c) (map e (dkeys c)).
Definition cell_at (c : shape) (e : env) (k : nat) : env := nth k (fibre c (dkeys c) e) e.

(** the grids have the other axes of the weights, and the numbers of the cells are
    in range *)
Definition grids_ok (W : weights_array) (sh_in sh_out : shape) : Prop :=
  wf W /\ NoDup (dkeys sh_in) /\ NoDup (dkeys sh_out) /\
  (forall ax n, In (ax, n) (sshape W) -> In (ax, n) sh_in /\ In (ax, n) sh_out) /\
  forall e i j w, inside e (sshape W) -> In (i, j, w) (at_ W e) ->
    i < prod (dvals (grid_cells W sh_in)) /\ j < prod (dvals (grid_cells W sh_out)).

(** values that can be regridded: along the axes of the grid they fit, their other
    axes together with those of the weights have the common shape [orth] and are
    not axes of the output *)
Definition values_ok (W : weights_array) (sh_in sh_out : shape) (x : operand Qc) (orth : shape) : Prop :=
  op_wf x /\ broadcast_shapes [without (op_shape x) (dkeys (grid_cells W sh_in)); sshape W] = Ok orth /\
  (forall ax n m, In (ax, n) (op_shape x) -> In (ax, m) (grid_cells W sh_in) -> n = 1 \/ n = m) /\
  forall ax, In ax (dkeys orth) -> ~ In ax (dkeys (grid_cells W sh_out)).

(** the value of an output cell: the weighted sum of the input cells *)
Definition weighted (W : weights_array) (c_in : shape) (x : operand Qc) (e : env) (k : nat) : Qc :=
  qsum (map (fun t => let '(i, j, w) := t in if j =? k then (w * op_at x (cell_at c_in e i))%Qc else qint 0) (bat W e)).

Definition regridded (W : weights_array) (sh_in sh_out : shape) (x : operand Qc) (orth : shape) (r : sarr Qc) : Prop :=
  wf r /\ sshape r = orth ++ grid_cells W sh_out /\
  forall e, inside e (sshape r) -> at_ r e = weighted W (grid_cells W sh_in) x e (cell_number (grid_cells W sh_out) e).

(** the weights of the opposite direction *)
Definition swap (t : nat * nat * Qc) : nat * nat * Qc := let '(i, j, w) := t in (j, i, w).

(** the sum of the products over all positions of [sh] *)
Definition inner (f g : env -> Qc) (sh : shape) (e : env) : Qc :=
  qsum (map (fun e' => (f e' * g e')%Qc) (fibre sh (dkeys sh) e)).

(** [e] can be clamped to [sh] *)
Definition reaches (e : env) (sh : shape) : Prop := forall ax n, In (ax, n) sh -> n = 1 \/ e ax < n.
