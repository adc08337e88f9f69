(** Specification of operations of uncertain arrays along an axis. *)
From Coq Require Import String List Arith ZArith Bool.
From Verif Require Import Base Numpy Shapes Scalar Elementwise Uncertain Spec SpecUncertain.
Import ListNotations.
Open Scope nat_scope.
Open Scope list_scope.

(** the [n] values along [axis] through [e], in a world *)
Definition u_run {A} (x : uop A) (w : option nat) (axis : string) (n : nat) (e : env) : list A :=
  map (fun j => u_at x w (set_env e axis j)) (seq 0 n).

(** the line through [e] of the part that belongs to a world *)
Definition u_line {A} (u : unc A) (w : option nat) (axis : string) (e : env) : list A :=
  line (normalize (u_part u w)) axis (in_world w e).

(** the axis of the samples with its size, if there are samples *)
Definition samples {A} (u : unc A) : shape :=
  match dget (op_shape (u_distribution u)) axis_distribution with Some k => [(axis_distribution, k)] | None => [] end.
