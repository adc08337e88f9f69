(** Specification of function arrays. *)
From Coq Require Import String List Arith ZArith Bool.
From Verif Require Import Base Numpy Shapes Scalar Spec Func.
Import ListNotations.
Open Scope nat_scope.
Open Scope list_scope.

(** along [ax] the outputs are the values of [n] bins and the inputs are the
    vertices of the bins *)
Definition bins {A B} (f : farr A B) (ax : string) (n : nat) : Prop :=
  In (ax, n) (sshape (f_outputs f)) /\ In (ax, S n) (sshape (f_inputs f)).

(** every axis of both parts has either one input for each output, or bins *)
Definition matched {A B} (f : farr A B) : Prop :=
  forall ax n m, In (ax, n) (sshape (f_outputs f)) -> In (ax, m) (sshape (f_inputs f)) -> m = n \/ m = S n.

(** one of the corners of a cell: along each axis of bins the first or the second
    vertex *)
Definition sides {A B} (f : farr A B) (side : string -> nat) : Prop :=
  forall ax, side ax = 0 \/ (side ax = 1 /\ exists n, bins f ax n).

Definition corner (side : string -> nat) (e : env) : env := fun ax => e ax + side ax.

(** [e] is the position of a cell of [r], along axes of bins of [f] in terms of
    the outputs *)
Definition cell {A B} (f r : farr A B) (e : env) : Prop :=
  inside e (sshape (f_outputs r)) /\
  forall ax k, In (ax, k) (sshape (f_inputs r)) -> (forall n, ~ bins f ax n) -> e ax < k.

(** integers and slices that do not count from the end, without a step *)
Definition from_start (n : nat) (i : item) : Prop :=
  match i with
  | ItInt z | ItNpInt z => (0 <= z < Z.of_nat n)%Z
  | ItSlice s =>
      (sl_step s = None \/ sl_step s = Some 1%Z) /\
      (forall k, sl_start s = Some k -> (0 <= k)%Z) /\ (forall k, sl_stop s = Some k -> (0 <= k)%Z)
  | _ => False
  end.
