(** C35: dispatch of library functions over the types of their arguments. *)
From Coq Require Import String List Arith ZArith Bool Lia Permutation.
From Verif Require Import Base BaseFacts Dispatch SpecDispatch DispatchFacts.
Import ListNotations.
Open Scope nat_scope.
Open Scope list_scope.

(** All the arrays among the arguments take part.  They are asked one after the
    other until one does not decline; nothing is asked afterwards, and TypeError
    is raised when all decline.  When the classes of the arrays are pairwise
    comparable, a superclass is asked before its subclasses, and arrays of the
    same class in the order of the call.  Missing from the full statement: the
    order has to prefer subclasses, and has to respect subclassing also in the
    presence of other classes; see below. *)
Theorem C35_dispatch_partial :
  forall (X T R : Type) (class : X -> T) (same subclass : T -> T -> bool),
  class_order same subclass ->
  forall (answer : X -> res (option R)) (args : list (option X)) (kwargs : dict (option X)),
  exists order, Permutation order (arrays_of args kwargs) /\
    outcome answer order (fst (named_array_function class same subclass answer args kwargs))
                         (snd (named_array_function class same subclass answer args kwargs)) /\
    ((forall x y, In x (arrays_of args kwargs) -> In y (arrays_of args kwargs) ->
        subclass (class x) (class y) = true \/ subclass (class y) (class x) = true) ->
     (forall before x between y after, order = before ++ x :: between ++ y :: after -> subclass (class y) (class x) = true) /\
     forall t, filter (fun x => same (class x) t) order = filter (fun x => same (class x) t) (arrays_of args kwargs)).
Proof. exact @dispatch_spec. Qed.
Print Assumptions C35_dispatch_partial.

(** three classes: 1 is a subclass of 0, and 2 is related to neither *)
Definition sub35 (s t : nat) : bool := (s =? t) || ((s =? 1) && (t =? 0)).

Lemma classes35 : class_order Nat.eqb sub35.
Proof.
  split.
  - intros s t. apply Nat.eqb_eq.
  - intros t. unfold sub35. now rewrite Nat.eqb_refl.
  - intros r s t. unfold sub35. rewrite !orb_true_iff, !andb_true_iff, !Nat.eqb_eq. lia.
  - intros s t. unfold sub35. rewrite !orb_true_iff, !andb_true_iff, !Nat.eqb_eq. lia.
Qed.

(** Arrays are pairs of a class and a name; all answer with their name. *)
Definition call35 (args : list (nat * nat)) : list (nat * nat) * res nat :=
  named_array_function fst Nat.eqb sub35 (fun x => Ok (Some (snd x))) (map Some args) [].

(** The implementation of the base class answers although an instance of the
    subclass is among the arguments, whatever the order of the arguments. *)
Theorem C35_specific_refuted :
  class_order Nat.eqb sub35 /\
  call35 [(0, 10); (1, 11)] = ([(0, 10)], Ok 10) /\
  call35 [(1, 11); (0, 10)] = ([(0, 10)], Ok 10).
Proof. split; [exact classes35|]. vm_compute. auto. Qed.
Print Assumptions C35_specific_refuted.

(** With an array of an unrelated class between them it is the other way round,
    so that the order is not compatible with subclassing in either direction. *)
Theorem C35_order_refuted :
  class_order Nat.eqb sub35 /\
  call35 [(1, 11); (2, 12); (0, 10)] = ([(1, 11)], Ok 11) /\
  call35 [(1, 11); (0, 10); (2, 12)] = ([(0, 10)], Ok 10).
Proof. split; [exact classes35|]. vm_compute. auto. Qed.
Print Assumptions C35_order_refuted.

(** four arguments of comparable classes, of which the first two asked decline *)
Example C35_declined :
  named_array_function fst Nat.eqb sub35 (fun x => Ok (if snd x <? 12 then None else Some (snd x)))
    [Some (1, 13); None; Some (0, 11); Some (1, 10)] [("where"%string, Some (0, 12))] =
  ([(0, 11); (0, 12)], Ok 12).
Proof. vm_compute. reflexivity. Qed.

Example C35_all_decline :
  named_array_function fst Nat.eqb sub35 (fun _ : nat * nat => Ok (@None nat))
    [Some (1, 13); None; Some (0, 11); Some (1, 10)] [("where"%string, Some (0, 12))] =
  ([(0, 11); (0, 12); (1, 13); (1, 10)], Err TypeError).
Proof. vm_compute. reflexivity. Qed.
