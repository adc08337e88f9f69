(** C12: combine_axes is a bijection on elements. *)
From Coq Require Import String List Arith ZArith Bool Lia Sorted.
From Verif Require Import Base Numpy Shapes Scalar Reorder Spec ReorderFacts.
Import ListNotations.
Open Scope nat_scope.
Open Scope list_scope.

(** Exact condition for success.  The last line is what the property does not
    expect: an axis that is kept and has size 0 makes the call fail (see the
    refutation below). *)
Theorem C12_combine_axes_success :
  forall (A : Type) (a : sarr A) (l : list string) (new : string),
  wf a ->
  ((exists r, combine_axes a (Some l) (Some new) = Ok r) <->
   NoDup l /\ incl l (s_axes a) /\
   (forall ax n, In (ax, n) (sshape a) -> ~ In ax l -> n <> 0 /\ ax <> new)).
Proof. exact @combine_axes_success. Qed.
Print Assumptions C12_combine_axes_success.

(** The given axes are replaced by one axis, whose size is the product of their
    sizes; its positions are row-major positions in the order the axes are
    given; everything else is unchanged.  (Partial: for calls that succeed, and
    the calls with a kept axis of size 0 do not.) *)
Theorem C12_combine_axes_partial :
  forall (A : Type) (a : sarr A) (l : list string) (new : string) (r : sarr A),
  wf a -> combine_axes a (Some l) (Some new) = Ok r ->
  wf r /\ s_axes r = filter (fun ax => negb (smem ax l)) (s_axes a) ++ [new] /\
  (forall ax n, In (ax, n) (sshape r) <->
     (In (ax, n) (sshape a) /\ ~ In ax l) \/ (ax = new /\ n = total_size (sshape a) l)) /\
  (forall e e', inside e (sshape r) -> inside e' (sshape a) ->
     (forall ax, In ax (s_axes a) -> ~ In ax l -> e' ax = e ax) ->
     row_major (map (fun ax => match dget (sshape a) ax with Some n => n | None => 0 end) l) (map e' l) = e new ->
     at_ r e = at_ a e').
Proof. exact @combine_axes_spec. Qed.
Print Assumptions C12_combine_axes_partial.

(** Every element of the result comes from an element of [a] in that way. *)
Theorem C12_combine_axes_source :
  forall (A : Type) (a : sarr A) (l : list string) (new : string) (r : sarr A) (e : env),
  wf a -> combine_axes a (Some l) (Some new) = Ok r -> inside e (sshape r) ->
  exists e', inside e' (sshape a) /\
     (forall ax, ~ In ax l -> e' ax = e ax) /\
     row_major (map (fun ax => match dget (sshape a) ax with Some n => n | None => 0 end) l) (map e' l) = e new.
Proof. exact @combine_axes_source. Qed.
Print Assumptions C12_combine_axes_source.

Open Scope string_scope.
Definition ex_a : sarr Z := mkS (of_list 0%Z [2; 2; 3] [0; 1; 2; 10; 11; 12; 100; 101; 102; 110; 111; 112]%Z) ["x"; "y"; "z"].

Lemma ex_a_wf : wf ex_a.
Proof. split; [repeat constructor; simpl; intuition discriminate|reflexivity]. Qed.

Example C12_example :
  wf ex_a /\
  exists r, combine_axes ex_a (Some ["z"; "x"]) (Some "w") = Ok r /\
    sshape r = [("y", 2); ("w", 6)] /\
    ravel (s_nd r) = [0; 100; 1; 101; 2; 102; 10; 110; 11; 111; 12; 112]%Z.
Proof. split; [exact ex_a_wf|]. eexists; repeat split. Qed.

(** An array with no elements whose empty axis is kept cannot be reshaped. *)
Theorem C12_empty_axis_refuted :
  exists (a : sarr Z) (l : list string) (new : string),
    wf a /\ NoDup l /\ incl l (s_axes a) /\ ~ In new (s_axes a) /\
    combine_axes a (Some l) (Some new) = Err ValueError.
Proof.
  exists (mkS (of_list 0%Z [0; 2; 3] []) ["x"; "y"; "z"]), ["y"; "z"], "w".
  split; [split; [repeat constructor; simpl; intuition discriminate|reflexivity]|].
  split; [repeat constructor; simpl; intuition discriminate|].
  split; [intros x Hx; simpl in *; tauto|]. split; [simpl; intuition discriminate|]. reflexivity.
Qed.
Print Assumptions C12_empty_axis_refuted.
