(** Specification of operations on function arrays. *)
From Coq Require Import String List Arith ZArith Bool.
From Verif Require Import Base Numpy Shapes Scalar Spec SpecDerived SpecNumeric Func.
Import ListNotations.
Open Scope nat_scope.
Open Scope list_scope.

(** every axis of both parts has one input for each output, bins, or a part with
    a single element *)
Definition compatible {A B} (f : farr A B) : Prop :=
  forall ax n m, In (ax, n) (sshape (f_outputs f)) -> In (ax, m) (sshape (f_inputs f)) ->
    m = n \/ m = S n \/ n = 1 \/ m = 1.

(** the number of the points of a function along an axis, those of the outputs
    along an axis of bins *)
Definition points {A B} (f : farr A B) (ax : string) : option nat :=
  match dget (sshape (f_outputs f)) ax, dget (sshape (f_inputs f)) ax with
  | Some m, Some n => Some (if n =? S m then m else if m =? 1 then n else m)
  | Some m, None => Some m
  | None, o => o
  end.

(** the axes of [l] along which the function has bins *)
Definition binned {A B} (f : farr A B) (ax : string) : bool :=
  match dget (sshape (f_outputs f)) ax, dget (sshape (f_inputs f)) ax with Some m, Some n => n =? S m | _, _ => false end.

(** the axes of [l], those of bins last *)
Definition centers_first {A B} (f : farr A B) (l : list string) : list string :=
  filter (fun ax => negb (binned f ax)) l ++ filter (binned f) l.

Definition vertices {A B} (f : farr A B) (l : list string) : list string := filter (binned f) l.

(** the input at the middle of the bins along the axes [l], from the vertices that
    start at [e] *)
Definition middle {A B} (add mul : A -> A -> A) (zero one half : A) (f : farr A B) (l : list string) (e : env) : A :=
  mul (power mul one half (length (vertices f l))) (sum add zero (map (at_ (f_inputs f)) (corners (vertices f l) e))).

Section Integral.
Context {A : Type} (add mul sub : A -> A -> A) (zero half : A) (f : farr A A) (x : string).

(** the mean height of the function between the inputs number [i] and [i + 1]
    along [x]: the output of the bin, the mean of the two samples, or the output
    if there is only one along [x] *)
Definition height (e : env) (i : nat) : A :=
  let v j := bat (f_outputs f) (set_env e x j) in
  match dget (sshape (f_outputs f)) x, dget (sshape (f_inputs f)) x with
  | Some m, Some n => if n =? S m then v i else mul half (add (v i) (v (S i)))
  | _, _ => v i
  end.

(** the number of the inputs along [x] *)
Definition knots : nat := size_of (sshape (f_inputs f)) x.

Definition knot (e : env) (i : nat) : A := bat (f_inputs f) (set_env e x i).

(** the integral of the function along [x] at the position [e] of the other axes *)
Definition integral (e : env) : A :=
  sum add zero (map (fun i => mul (height e i) (sub (knot e (S i)) (knot e i))) (seq 0 (knots - 1))).
End Integral.

(** two arrays have the same element wherever both have one after broadcasting *)
Definition agree {A} (a b : sarr A) : Prop :=
  ~ conflict [sshape a; sshape b] /\
  forall e, (forall ax n, In ax (s_axes a) \/ In ax (s_axes b) -> common_size (sizes_of [sshape a; sshape b] ax) n -> e ax < n) ->
    bat a e = bat b e.
