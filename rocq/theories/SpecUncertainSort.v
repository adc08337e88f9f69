(** Specification of sorting uncertain scalars. *)
From Coq Require Import String List Arith ZArith Bool Sorted Permutation.
From Verif Require Import Base Numpy Shapes Scalar Elementwise Uncertain Spec SpecUncertain.
Import ListNotations.
Open Scope nat_scope.
Open Scope list_scope.

(** the axes [l] of the shape can be combined into one: they are distinct axes of the shape, at
    least one, and no other axis is empty or has the name of the combination *)
Definition arrangeable (sh : shape) (l : list string) : Prop :=
  l <> [] /\ NoDup l /\ incl l (dkeys sh) /\
  forall ax n, In (ax, n) sh -> ~ In ax l -> n <> 0 /\ ax <> flat_name l.

(** the mean of the [num] samples at [e] *)
Definition sample_mean {A B} (mean : list A -> B) (u : unc A) (num : nat) (e : env) : B :=
  mean (map (fun k => u_at (Uncertain u) (Some k) e) (seq 0 num)).

(** [p] lists the positions of the elements of [l] in an order that sorts them *)
Definition order_of {A} (le : A -> A -> Prop) (l : list A) (p : list nat) : Prop :=
  Permutation (seq 0 (length l)) p /\
  StronglySorted (fun i j => forall x y, nth_error l i = Some x -> nth_error l j = Some y -> le x y) p.

(** the world exists: the nominal values, or one of the [num] samples *)
Definition world (num : nat) (w : option nat) : Prop :=
  match w with Some k => k < num | None => True end.
