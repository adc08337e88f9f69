(** Specification vocabulary for [na.despike]. *)
From Coq Require Import String List Arith Bool.
From Verif Require Import Base Numpy Shapes Scalar Spec SpecNumeric SpecInterp Despike.
Import ListNotations.
Open Scope nat_scope.
Open Scope list_scope.

(** the table of [m] rows and [n] columns of a function *)
Definition table {A} (m n : nat) (f : nat -> nat -> A) : image A :=
  (m, n, flat_map (fun i => map (f i) (seq 0 n)) (seq 0 m)).

Definition opt_table {A} (m n : nat) (f : option (nat -> nat -> A)) : option (image A) :=
  match f with Some f => Some (table m n f) | None => None end.

(** the values along two axes, at a position of the other axes *)
Definition plane {A} (o : operand A) (x y : string) (e : env) (i j : nat) : A := op_at o (set_env (set_env e x i) y j).

Definition opt_plane {A} (o : option (operand A)) (x y : string) (e : env) : option (nat -> nat -> A) :=
  match o with Some o => Some (plane o x y e) | None => None end.

(** the pixels that are not considered *)
Definition excluded (w : option (operand bool)) (x y : string) (e : env) : option (nat -> nat -> bool) :=
  match w with Some w => Some (fun i j => negb (plane w x y e i j)) | None => None end.

Definition flip {A} (f : nat -> nat -> A) : nat -> nat -> A := fun i j => f j i.

(** the detector treats rows and columns alike *)
Definition impartial {A P} (detect : detector A P) : Prop :=
  forall m n (f : nat -> nat -> A) g b v p q (k : option (nat -> nat -> P)) i j,
  i < m -> j < n ->
  detect (table m n f) (opt_table m n g) (opt_table m n b) (opt_table m n v) (opt_table p q k) i j
  = detect (table n m (flip f)) (opt_table n m (option_map flip g)) (opt_table n m (option_map flip b))
      (opt_table n m (option_map flip v)) (opt_table q p (option_map flip k)) j i.

(** the same optional argument, whatever the storage order *)
Definition same_option {A} (o p : option (operand A)) : Prop :=
  match o, p with
  | Some o, Some p => same_operand o p
  | None, None => True
  | _, _ => False
  end.
