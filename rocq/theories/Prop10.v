(** C10: [na.debroadcast] removes exactly the axes along which the array is
    constant, and broadcasting the result gives the array back. *)
From Coq Require Import String List Arith ZArith Bool Lia.
From Verif Require Import Base Numpy Shapes Scalar Derived Spec SpecDerived DerivedFacts.
Import ListNotations.
Open Scope nat_scope.
Open Scope list_scope.

(** [eqb] is any comparison of elements; for floats it is false on NaN. *)
Theorem C10_debroadcast :
  forall (A : Type) (eqb : A -> A -> bool) (a : sarr A) (axes : option (list string)), wf a ->
  exists r removed, na_debroadcast eqb a axes = Ok r /\ wf r /\
    sshape r = filter (fun kv => negb (smem (fst kv) removed)) (sshape a) /\
    (forall ax, In ax removed <->
       In ax (match axes with Some l => l | None => s_axes a end) /\
       exists n, In (ax, n) (sshape a) /\ n <> 0 /\ constant eqb a ax) /\
    forall e, inside e (sshape r) -> at_ r e = at_ a (fun ax => if smem ax removed then 0 else e ax).
Proof. exact @debroadcast_spec. Qed.
Print Assumptions C10_debroadcast.

Theorem C10_broadcast_back :
  forall (A : Type) (eqb : A -> A -> bool) (a r : sarr A) (axes : option (list string)),
  wf a -> (forall x y, eqb x y = true -> x = y) -> na_debroadcast eqb a axes = Ok r ->
  exists b, na_broadcast_to r (sshape a) false = Ok b /\ wf b /\ sshape b = sshape a /\
    forall e, inside e (sshape a) -> at_ b e = at_ a e.
Proof. exact @debroadcast_roundtrip. Qed.
Print Assumptions C10_broadcast_back.

(** The documented inverse: an array that is not constant along any of its own
    axes is recovered from its broadcast, as long as nothing is empty. *)
Theorem C10_recovers :
  forall (A : Type) (eqb : A -> A -> bool) (a b : sarr A) (sh : shape),
  wf a -> NoDup (dkeys sh) -> exact_eq eqb ->
  (forall ax n, In (ax, n) sh -> n <> 0) ->
  (forall ax, In ax (s_axes a) -> ~ constant eqb a ax) ->
  na_broadcast_to a sh false = Ok b ->
  exists r, na_debroadcast eqb b None = Ok r /\ wf r /\ same_array r a.
Proof. exact @debroadcast_recovers. Qed.
Print Assumptions C10_recovers.

(** The documented minimality: every array that broadcasts to [a] has all the
    nonempty axes of the result. *)
Theorem C10_smallest :
  forall (A : Type) (eqb : A -> A -> bool) (a r c b : sarr A),
  wf a -> wf c -> exact_eq eqb -> na_debroadcast eqb a None = Ok r ->
  na_broadcast_to c (sshape a) false = Ok b -> (forall e, inside e (sshape a) -> at_ b e = at_ a e) ->
  forall ax n, In (ax, n) (sshape r) -> n <> 0 -> In (ax, n) (sshape c).
Proof. exact @debroadcast_smallest. Qed.
Print Assumptions C10_smallest.

Open Scope string_scope.

Definition show (r : res (sarr nat)) : option (shape * list nat) :=
  match r with Ok r => Some (sshape r, ravel (s_nd r)) | Err _ => None end.

(** constant along "y" only *)
Definition ex_a : sarr nat := mkS (of_list 0 [2; 3; 2] [1; 2; 1; 2; 1; 2;  4; 5; 4; 5; 4; 5]) ["x"; "y"; "z"].

Example C10_example :
  show (na_debroadcast Nat.eqb ex_a None) = Some ([("x", 2); ("z", 2)], [1; 2; 4; 5]).
Proof. vm_compute. reflexivity. Qed.

Example C10_example_subset : show (na_debroadcast Nat.eqb ex_a (Some ["x"; "w"; "z"])) = show (Ok ex_a).
Proof. vm_compute. reflexivity. Qed.

Example C10_example_wf : wf ex_a /\ exact_eq Nat.eqb.
Proof.
  split; [|exact Nat.eqb_eq]. split; [repeat constructor; simpl; intuition discriminate|reflexivity].
Qed.

(** the hypotheses of [C10_recovers] *)
Definition ex_c : sarr nat := mkS (of_list 0 [2; 2] [1; 2; 4; 5]) ["x"; "z"].

Example C10_example_recovers :
  wf ex_c /\ (forall ax, In ax (s_axes ex_c) -> ~ constant Nat.eqb ex_c ax) /\
  show (b <- na_broadcast_to ex_c [("z", 2); ("y", 3); ("x", 2)] false ;; na_debroadcast Nat.eqb b None) =
    Some ([("z", 2); ("x", 2)], [1; 4; 2; 5]).
Proof.
  split; [split; [repeat constructor; simpl; intuition discriminate|reflexivity]|]. split.
  - intros ax Hax H. specialize (H (fun _ => 1)).
    assert (I1 : inside (fun _ => 1) (sshape ex_c)) by (intros x n [E|[E|[]]]; injection E as <- <-; lia).
    specialize (H I1). destruct Hax as [<-|[<-|[]]]; discriminate.
  - vm_compute. reflexivity.
Qed.

(** an empty axis is kept, so the documented inverse needs nonempty axes *)
Example C10_example_empty :
  show (b <- na_broadcast_to ex_c [("x", 2); ("z", 2); ("y", 0)] false ;; na_debroadcast Nat.eqb b None) = Some ([("y", 0)], []).
Proof. vm_compute. reflexivity. Qed.
