(** Specification of dispatch. *)
From Coq Require Import String List Arith ZArith Bool.
From Verif Require Import Base.
Import ListNotations.
Open Scope nat_scope.
Open Scope list_scope.

(** the arrays among the arguments, in the order of the call *)
Definition arrays_of {X} (args : list (option X)) (kwargs : dict (option X)) : list X :=
  flat_map (fun o => match o with Some x => [x] | None => [] end) (args ++ map snd kwargs).

(** [issubclass] as a relation between classes *)
Record class_order {T} (same subclass : T -> T -> bool) : Prop := {
  same_eq : forall s t, same s t = true <-> s = t;
  sub_refl : forall t, subclass t t = true;
  sub_trans : forall r s t, subclass r s = true -> subclass s t = true -> subclass r t = true;
  sub_antisym : forall s t, subclass s t = true -> subclass t s = true -> s = t
}.

(** asking the arrays one after the other: [asked] are those that were asked *)
Definition outcome {X R} (answer : X -> res (option R)) (order asked : list X) (r : res R) : Prop :=
  (asked = order /\ (forall x, In x order -> answer x = Ok None) /\ r = Err TypeError) \/
  exists declined x later, order = declined ++ x :: later /\ asked = declined ++ [x] /\
    (forall y, In y declined -> answer y = Ok None) /\
    match r with Ok v => answer x = Ok (Some v) | Err e => answer x = Err e end.
