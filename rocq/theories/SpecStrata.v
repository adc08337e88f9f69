(** Specification of stratified samples: the pieces around the equally spaced points. *)
From Coq Require Import ZArith QArith Qcanon Bool.
From Verif Require Import SpecNumeric.

(** the beginning of the piece number [i] of an interval: the pieces themselves, when
    the points are their centers, otherwise pieces around the edges *)
Definition stratum_begin (s t : Qc) (num : nat) (endpoint centers : bool) (i : nat) : Qc :=
  (s + (qnat i - if centers then qint 0 else half) * piece s t num endpoint centers)%Qc.

Definition stratum_end (s t : Qc) (num : nat) (endpoint centers : bool) (i : nat) : Qc :=
  (stratum_begin s t num endpoint centers i + piece s t num endpoint centers)%Qc.

(** [x] is between [a], which is included, and [b], which is not, in either direction *)
Definition between (a b x : Qc) : Prop :=
  ((a < b)%Qc -> (a <= x)%Qc /\ (x < b)%Qc) /\ ((b < a)%Qc -> (b < x)%Qc /\ (x <= a)%Qc) /\ (a = b -> x = a).

(** random numbers at least 0 and below 1 *)
Definition unit_interval (u : option Z -> list nat -> list nat -> Qc) : Prop :=
  forall seed sizes idx, (0 <= u seed sizes idx)%Qc /\ (u seed sizes idx < 1)%Qc.
