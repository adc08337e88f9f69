(** Specification vocabulary for histograms. *)
From Coq Require Import String List Arith ZArith QArith Qcanon Bool Lia.
From Verif Require Import Base Numpy Shapes Scalar Spec SpecNumeric.
Import ListNotations.
Open Scope nat_scope.
Open Scope list_scope.

Definition qsum (l : list Qc) : Qc := fold_right Qcplus (qint 0) l.

Definition less (x y : Qc) : bool := if Qclt_le_dec x y then true else false.

(** [x] is in cell [k] of the cells between [n] edges: they contain their lower
    edge, the last one also its upper edge *)
Definition in_cell (edge : nat -> Qc) (n k : nat) (x : Qc) : bool :=
  (negb (less x (edge k)) && less x (edge (S k))) ||
  ((S (S k) =? n) && (if Qc_eq_dec x (edge (S k)) then true else false)).

(** the axes over which no histogram is taken *)
Definition apart (sh : shape) (axis : list string) : shape :=
  filter (fun kv => negb (smem (fst kv) axis)) sh.

(** one dimension of a histogram: the samples, the edges and their axis *)
Record dimension : Type := mkDim { d_sample : sarr Qc; d_edges : sarr Qc; d_axis : string }.

Definition d_count (d : dimension) : nat := size_of (sshape (d_edges d)) (d_axis d).
(** edge [i] of the dimension at [e] *)
Definition d_edge (d : dimension) (e : env) (i : nat) : Qc := bat (d_edges d) (set_env e (d_axis d) i).

(** the edges can be used: they have one new axis with at least one element, the
    other axes fit, and they do not decrease *)
Definition edges_ok (orth : shape) (d : dimension) : Prop :=
  wf (d_edges d) /\ In (d_axis d) (s_axes (d_edges d)) /\ ~ In (d_axis d) (dkeys orth) /\ d_count d <> 0 /\
  (forall ax n, In (ax, n) (sshape (d_edges d)) -> ax <> d_axis d -> exists m, In (ax, m) orth /\ (n = 1 \/ n = m)) /\
  forall e i j, inside e orth -> i <= j -> j < d_count d -> (d_edge d e i <= d_edge d e j)%Qc.

(** the sample at [e'] belongs to the cell at [e] *)
Definition in_cells (ds : list dimension) (e e' : env) : bool :=
  forallb (fun d => in_cell (d_edge d e) (d_count d) (e (d_axis d)) (bat (d_sample d) e')) ds.

Definition weight_at (w : option (sarr Qc)) (e : env) : Qc :=
  match w with Some w => bat w e | None => qint 1 end.

(** the shape of the histogram *)
Definition cells_shape (orth : shape) (ds : list dimension) : shape :=
  orth ++ map (fun d => (d_axis d, d_count d - 1)) ds.

(** [h] counts the samples (or sums their weights) *)
Definition is_histogram (h : sarr Qc) (sh : shape) (axis : list string) (ds : list dimension) (w : option (sarr Qc)) : Prop :=
  wf h /\ same_shape (sshape h) (cells_shape (apart sh axis) ds) /\
  forall e, inside e (sshape h) ->
    at_ h e = qsum (map (weight_at w) (filter (in_cells ds e) (fibre sh axis e))).

(** [n] edges at equal distances from [lo] to [hi] *)
Definition evenly (lo hi : Qc) (n : nat) (edge : nat -> Qc) : Prop :=
  forall i, i < n -> edge i = (lo + qnat i * piece lo hi n true false)%Qc.

Definition is_min (x : Qc) (l : list Qc) : Prop := In x l /\ forall y, In y l -> (x <= y)%Qc.
Definition is_max (x : Qc) (l : list Qc) : Prop := In x l /\ forall y, In y l -> (y <= x)%Qc.

(** the edges run from the least to the greatest sample *)
Definition spans (sh : shape) (axis : list string) (d : dimension) : Prop :=
  forall e, inside e (apart sh axis) -> exists lo hi,
    is_min lo (map (bat (d_sample d)) (fibre sh axis e)) /\ is_max hi (map (bat (d_sample d)) (fibre sh axis e)) /\
    evenly lo hi (d_count d) (d_edge d e).

(** the axes that a histogram of arrays of the common shape [sh] is taken over *)
Definition hist_axes (sh : shape) (axis : option (list string)) : list string :=
  match axis with Some l => l | None => dkeys sh end.

Definition opt_shape (w : option (sarr Qc)) : list shape := match w with Some w => [sshape w] | None => [] end.
Definition opt_wf (w : option (sarr Qc)) : Prop := match w with Some w => wf w | None => True end.

(** what a user asks for in one dimension: samples, limits, the name of the new
    axis and a number of bins *)
Record bounded := mkB { b_sample : sarr Qc; b_lo : operand Qc; b_hi : operand Qc; b_axis : string; b_num : nat }.

Definition limit_ok (orth : shape) (o : operand Qc) : Prop := op_wf o /\ fits_in (op_shape o) orth.

Definition bounded_ok (orth : shape) (b : bounded) : Prop :=
  limit_ok orth (b_lo b) /\ limit_ok orth (b_hi b) /\
  (forall e, inside e orth -> (op_at (b_lo b) e <= op_at (b_hi b) e)%Qc) /\ ~ In (b_axis b) (dkeys orth).

(** the dimension made of it, with [count] of the number of bins edges *)
Definition made_of (orth : shape) (count : nat -> nat) (b : bounded) (d : dimension) : Prop :=
  d_sample d = b_sample b /\ d_axis d = b_axis b /\ d_count d = count (b_num b) /\ edges_ok orth d /\
  forall e, inside e orth -> evenly (op_at (b_lo b) e) (op_at (b_hi b) e) (d_count d) (d_edge d e).

(** numbers of bins as the dictionary that is passed *)
Definition z_dict (d : dict nat) : dict Z := map (fun kv => (fst kv, Z.of_nat (snd kv))) d.
Definition b_dict (bs : list bounded) : dict nat := map (fun b => (b_axis b, b_num b)) bs.

(** what the user gets without limits; [count] edges for every number of bins *)
Definition counted (count : nat -> nat) (ss : list (sarr Qc)) (d : dict nat) sh axis w (h : sarr Qc) (ds : list dimension) : Prop :=
  map d_sample ds = ss /\ map d_axis ds = dkeys d /\ map d_count ds = map count (dvals d) /\
  is_histogram h sh axis ds w /\ Forall (spans sh axis) ds /\
  ((forall n, In n (dvals d) -> 2 <= count n) -> forall e, inside e (apart sh axis) ->
     qsum (map (at_ h) (fibre (sshape h) (dkeys d) e)) = qsum (map (weight_at w) (fibre sh axis e))).
