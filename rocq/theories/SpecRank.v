(** Specification of ranks. *)
From Coq Require Import String List Arith ZArith Bool QArith Qcanon.
From Verif Require Import Base Numpy Shapes Scalar Spec.
Import ListNotations.
Open Scope nat_scope.
Open Scope list_scope.

Section Ranks.
Context {A : Type} (leb : A -> A -> bool) (dec : forall x y : A, {x = y} + {x <> y}).

Definition total_order : Prop :=
  (forall x y, leb x y = true \/ leb y x = true) /\
  (forall x y z, leb x y = true -> leb y z = true -> leb x z = true) /\
  (forall x y, leb x y = true -> leb y x = true -> x = y).

(** the order in which numpy sorts: NaN is the greatest *)
Definition nan_last (x y : option A) : Prop :=
  match x, y with
  | Some x, Some y => leb x y = true
  | None, Some _ => False
  | _, None => True
  end.

(** the numbers in a list of floating-point values *)
Definition numbers (l : list (option A)) : list A := flat_map (fun o => match o with Some x => [x] | None => [] end) l.

Definition smaller (x : A) (l : list A) : list A := filter (fun y => negb (leb x y)) l.
Definition up_to (x : A) (l : list A) : list A := filter (fun y => leb y x) l.

Definition rank_min (x : A) (l : list A) : nat := 1 + length (smaller x l).
Definition rank_max (x : A) (l : list A) : nat := length (up_to x l).
Definition rank_dense (x : A) (l : list A) : nat := 1 + length (nodup dec (smaller x l)).

(** the rank of the number [x] among the numbers [l] *)
Definition rank_of (method : string) (x : A) (l : list A) : option Qc :=
  let exactly (n : nat) : Qc := Q2Qc (Z.of_nat n # 1) in
  if String.eqb method "min" then Some (exactly (rank_min x l))
  else if String.eqb method "max" then Some (exactly (rank_max x l))
  else if String.eqb method "average" then Some ((exactly (rank_min x l) + exactly (rank_max x l)) / (1 + 1))%Qc
  else if String.eqb method "dense" then Some (exactly (rank_dense x l))
  else None.
End Ranks.

(** the axes [l] of an array of shape [sh] can be ranked together: they are
    distinct axes, at least one, with at least one element, and no other axis is
    empty or has the name of the combination *)
Definition rankable (sh : shape) (l : list string) : Prop :=
  l <> [] /\ NoDup l /\ incl l (dkeys sh) /\ total_size sh l <> 0 /\
  (forall ax n, In (ax, n) sh -> ~ In ax l -> n <> 0 /\ ax <> flat_name l).

(** the position of the element [e] in the combination of the axes [l] *)
Definition flat_position (sh : shape) (l : list string) (e : env) : env :=
  set_env e (flat_name l) (row_major (map (size_of sh) l) (map e l)).

(** the shape in which the axes [l] are replaced by their combination *)
Definition flat_shape (sh : shape) (l : list string) (r : shape) : Prop :=
  forall ax n, In (ax, n) r <-> (In (ax, n) sh /\ ~ In ax l) \/ (ax = flat_name l /\ n = total_size sh l).
