(** Specification vocabulary for functions of exact rational numbers. *)
From Coq Require Import String List Arith ZArith QArith Qcanon Bool Lia.
From Verif Require Import Base Numpy Shapes Scalar Spec.
Import ListNotations.
Open Scope nat_scope.
Open Scope list_scope.

(** an integer as a number *)
Definition qint (z : Z) : Qc := Q2Qc (inject_Z z).
Definition qnat (n : nat) : Qc := qint (Z.of_nat n).

(** the number of equal pieces that [num] samples cut an interval into: one less
    when the last edge is included, one more when the samples are centers *)
Definition pieces (num : nat) (endpoint centers : bool) : Z :=
  (Z.of_nat num - (if endpoint then 1 else 0) + (if centers then 1 else 0))%Z.

Definition piece (s t : Qc) (num : nat) (endpoint centers : bool) : Qc :=
  ((t - s) / qint (pieces num endpoint centers))%Qc.

Definition half : Qc := (1 / qint 2)%Qc.

(** position [x] along an axis of size [n] belongs to the segment from [k] to
    [k + 1], the first and last segments being extended *)
Definition segment (n : nat) (x : Qc) (k : nat) : Prop :=
  k + 1 < n /\ ((qnat k <= x)%Qc \/ k = 0) /\ ((x < qnat (k + 1))%Qc \/ k + 2 = n).

(** the axes of the shape [sh] that are not in [l] *)
Definition without (sh : shape) (l : list string) : shape :=
  filter (fun kv => negb (smem (fst kv) l)) sh.

(** fractional positions along some axes of [a], each of size 2 or more; the
    other axes and the positions have the common shape [B] *)
Definition interp_args (a : sarr Qc) (it : dict (sarr Qc)) (B : shape) : Prop :=
  wf a /\ NoDup (dkeys it) /\ it <> [] /\
  (forall ax x, In (ax, x) it -> wf x /\ exists n, In (ax, n) (sshape a) /\ 2 <= n) /\
  broadcast_shapes (without (sshape a) (dkeys it) :: map (fun kv => sshape (snd kv)) it) = Ok B.

(** the first vertex of the cell: position [k ax] along the axes of [l], along
    the others the position of [e] in an array of shape [sh] *)
Definition cell (sh : shape) (l : list string) (k : string -> nat) (e : env) : env :=
  fun ax => if smem ax l then k ax else bclamp sh e ax.
