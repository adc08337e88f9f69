(** C06: indexing ignores absent axes. *)
From Coq Require Import String List Arith ZArith Bool Lia.
From Verif Require Import Base Numpy Shapes Scalar Spec GetitemFacts.
Import ListNotations.
Open Scope nat_scope.
Open Scope list_scope.

(** A key that is not an axis of the array can be dropped, wherever it is in the
    dictionary and whatever its value: same result, same exception. *)
Theorem C06_absent_key :
  forall (A : Type) (a : sarr A) (it1 it2 : dict item) (k : string) (i : item),
  ~ In k (s_axes a) -> getitem a (it1 ++ (k, i) :: it2) = getitem a (it1 ++ it2).
Proof. exact @getitem_absent. Qed.
Print Assumptions C06_absent_key.

(** An item without any relevant key returns the array itself. *)
Theorem C06_no_relevant_key :
  forall (A : Type) (a : sarr A) (it : dict item),
  (forall k, In k (dkeys it) -> ~ In k (s_axes a)) -> getitem a it = Ok a.
Proof. exact @getitem_irrelevant. Qed.
Print Assumptions C06_no_relevant_key.

Open Scope string_scope.
Definition ex_a : sarr Z := mkS (of_list 0%Z [3] [7; 8; 9]%Z) ["x"].

Example C06_example :
  (exists r, getitem ex_a [("q", ItInt 12); ("x", ItInt 1); ("z", ItSlice (mkSlice None None (Some 0%Z)))] = Ok r
             /\ ravel (s_nd r) = [8]%Z) /\
  getitem ex_a [("q", ItInt 12); ("z", ItNone)] = Ok ex_a.
Proof. split; [eexists; repeat split|reflexivity]. Qed.
