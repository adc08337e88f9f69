(** Specification of evenly spaced uncertain scalars. *)
From Coq Require Import String List Arith ZArith QArith Qcanon Bool.
From Verif Require Import Base Numpy Shapes Scalar Elementwise Uncertain Spec SpecUncertain.
Import ListNotations.
Open Scope nat_scope.
Open Scope list_scope.

(** the nominal values of the two ends broadcast to [shn] and the samples to [shd], and the
    new axis is none of theirs and not that of the samples *)
Definition spaceable (start stop : uop Qc) (axis : string) (num : Z) (shn shd : shape) : Prop :=
  broadcast_shapes [op_shape (nominal_of start); op_shape (nominal_of stop)] = Ok shn /\
  broadcast_shapes [op_shape (distribution_of start); op_shape (distribution_of stop)] = Ok shd /\
  (0 <= num)%Z /\ ~ In axis (dkeys shn) /\ ~ In axis (dkeys shd) /\ axis <> axis_distribution.
