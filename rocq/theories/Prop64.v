(** C64: renaming the axes of a function array. *)
From Coq Require Import String List Arith ZArith Bool Lia Sorted.
From Verif Require Import Base Numpy Shapes Scalar Func FuncOps Spec SpecFunc SpecFuncOps FuncPairsFacts.
Import ListNotations.
Open Scope nat_scope.
Open Scope list_scope.

(** Partial: if each part has one of the axes, the renaming keeps the names of the
    shape apart and can be carried out one name at a time, both parts are renamed,
    and so is the shape. *)
Theorem C64_moveaxis_partial :
  forall (A B : Type) (f : farr A B) (source destination : list string) (sh : shape),
  wf (f_inputs f) -> wf (f_outputs f) -> compatible f -> f_shape f = Ok sh ->
  NoDup source -> length source = length destination -> incl source (dkeys sh) ->
  ForallOrdPairs (fun p q => snd p <> fst q) (combine source destination) ->
  let rho := rename (combine source destination) in
  NoDup (map rho (dkeys sh)) ->
  (exists s, In s source /\ In s (dkeys (sshape (f_inputs f)))) ->
  (exists s, In s source /\ In s (dkeys (sshape (f_outputs f)))) ->
  exists r sh', f_moveaxis f source destination = Ok r /\ wf (f_inputs r) /\ wf (f_outputs r) /\
    sshape (f_inputs r) = map (fun kv => (rho (fst kv), snd kv)) (sshape (f_inputs f)) /\
    sshape (f_outputs r) = map (fun kv => (rho (fst kv), snd kv)) (sshape (f_outputs f)) /\
    (forall e, at_ (f_inputs r) e = at_ (f_inputs f) (fun ax => e (rho ax))) /\
    (forall e, at_ (f_outputs r) e = at_ (f_outputs f) (fun ax => e (rho ax))) /\
    f_shape r = Ok sh' /\ NoDup (dkeys sh') /\
    forall ax n, In (ax, n) sh' <-> exists ax0, ax = rho ax0 /\ In (ax0, n) sh.
Proof. exact @f_moveaxis_spec. Qed.
Print Assumptions C64_moveaxis_partial.

Open Scope string_scope.

Definition arr (sh : list nat) (axes : list string) (l : list Z) : sarr Z := mkS (of_list 0%Z sh l) axes.
Definition show (r : res (farr Z Z)) :=
  match r with
  | Ok f => Ok (sshape (f_inputs f), ravel (s_nd (f_inputs f)), sshape (f_outputs f), ravel (s_nd (f_outputs f)))
  | Err e => Err e
  end.

Definition counts : farr Z Z := mkF (arr [3] ["x"] [0; 1; 3]%Z) (arr [2; 2] ["y"; "x"] [5; 7; 50; 70]%Z).

Example C64_example :
  show (f_moveaxis counts ["y"; "x"] ["z"; "y"]) = Ok ([("y", 3)], [0; 1; 3]%Z, [("z", 2); ("y", 2)], [5; 7; 50; 70]%Z).
Proof. vm_compute. reflexivity. Qed.

Lemma counts_ok : wf (f_inputs counts) /\ wf (f_outputs counts) /\ compatible counts.
Proof.
  split; [split; [repeat constructor; simpl; intuition discriminate|reflexivity]|].
  split; [split; [repeat constructor; simpl; intuition discriminate|reflexivity]|].
  intros ax n m [E|[E|[]]] [E'|[]]; injection E as <- <-; injection E' as E'; try discriminate E'; subst; auto.
Qed.

Example C64_applies : exists r sh', f_moveaxis counts ["y"; "x"] ["z"; "y"] = Ok r /\ f_shape r = Ok sh'.
Proof.
  destruct counts_ok as (Wi & Wo & C).
  destruct (C64_moveaxis_partial Z Z counts ["y"; "x"] ["z"; "y"] [("y", 2); ("x", 2)] Wi Wo C) as (r & sh' & E & H); auto.
  - repeat constructor; simpl; intuition discriminate.
  - intros s [<- |[<- |[]]]; simpl; auto.
  - repeat constructor. simpl. discriminate.
  - vm_compute. repeat constructor; simpl; intuition discriminate.
  - exists "x". simpl. auto.
  - exists "x". simpl. auto.
  - exists r, sh'. split; auto. apply H.
Qed.

(** An axis of one part alone cannot be renamed at all. *)
Theorem C64_one_part_refuted :
  exists f : farr Z Z, wf (f_inputs f) /\ wf (f_outputs f) /\ compatible f /\ f_shape f = Ok [("y", 2); ("x", 2)] /\
    f_moveaxis f ["y"] ["z"] = Err ValueError.
Proof.
  exists counts. destruct counts_ok as (Wi & Wo & C). repeat (split; [assumption || reflexivity|]). vm_compute. reflexivity.
Qed.
Print Assumptions C64_one_part_refuted.

(** A new name that is already the name of an axis of the other part is not
    refused: the two axes, independent of each other before, become one. *)
Definition apart : farr Z Z :=
  mkF (arr [2; 2] ["x"; "a"] [0; 1; 2; 3]%Z) (arr [2; 2] ["y"; "a"] [5; 6; 7; 8]%Z).

Theorem C64_merge_refuted :
  exists (f : farr Z Z) (source destination : list string),
    wf (f_inputs f) /\ wf (f_outputs f) /\ compatible f /\ NoDup source /\ NoDup destination /\
    ForallOrdPairs (fun p q => snd p <> fst q) (combine source destination) /\
    f_shape f = Ok [("y", 2); ("a", 2); ("x", 2)] /\
    exists r, f_moveaxis f source destination = Ok r /\ f_shape r = Ok [("y", 2); ("b", 2)].
Proof.
  exists apart, ["x"; "a"], ["y"; "b"].
  split; [split; [repeat constructor; simpl; intuition discriminate|reflexivity]|].
  split; [split; [repeat constructor; simpl; intuition discriminate|reflexivity]|].
  split; [intros ax n m [E|[E|[]]] [E'|[E'|[]]]; injection E as <- <-; injection E' as E'; try discriminate; subst; auto|].
  split; [repeat constructor; simpl; intuition discriminate|]. split; [repeat constructor; simpl; intuition discriminate|].
  split; [repeat constructor; simpl; discriminate|]. split; [reflexivity|]. eexists. split; reflexivity.
Qed.
Print Assumptions C64_merge_refuted.
