(** Specification of percentiles. *)
From Coq Require Import String List Arith ZArith Bool QArith Qcanon.
From Verif Require Import Base Numpy Shapes Scalar Spec.
Import ListNotations.
Open Scope nat_scope.
Open Scope list_scope.

Definition sum (l : list Qc) : Qc := fold_right Qcplus 0%Qc l.

Definition number (z : Z) : Qc := Q2Qc (z # 1).

(** the cumulative sum of the list [l], made piecewise linear, has the value [v]
    at the fractional position [x]: the whole part [k] of [x] counts complete
    elements, the fractional part [t] is the part taken of the next one *)
Definition cumulative_at (l : list Qc) (x v : Qc) : Prop :=
  exists k a t, nth_error l k = Some a /\ (0 <= t)%Qc /\ (t < 1)%Qc /\
    x = (number (Z.of_nat k) + t)%Qc /\ v = (sum (firstn k l) + t * a)%Qc.

(** a shape without the axis [ax] *)
Definition others_of (sh : shape) (ax : string) : shape := filter (fun kv => negb (String.eqb (fst kv) ax)) sh.
