(** C67: assignment to function arrays. *)
From Coq Require Import String List Arith ZArith Bool Lia.
From Verif Require Import Base Numpy Shapes Scalar Elementwise Func FuncOps Spec SpecNumeric SpecFunc SpecFuncOps FuncUfuncFacts.
Import ListNotations.
Open Scope nat_scope.
Open Scope list_scope.

(** A selection assigned to itself changes nothing.  Partial: along axes of bins
    the items are slices, and every other axis belongs to both parts; see below. *)
Theorem C67_self_partial :
  forall (A B : Type) (f : farr A B) (it : dict item) (g : farr A B),
  wf (f_inputs f) -> wf (f_outputs f) -> compatible f ->
  NoDup (dkeys it) -> Forall (fun kv => item_wf (snd kv)) it -> Forall (fun kv => item_py (snd kv)) it ->
  (forall ax i, In (ax, i) it -> In ax (s_axes (f_outputs f)) /\
     (binned f ax = true -> exists s, i = ItSlice s) /\ (binned f ax = false -> In ax (s_axes (f_inputs f)))) ->
  f_getitem f it = Ok g ->
  exists f', f_setitem f it (FVFun g) = (f', Ok tt) /\ wf (f_inputs f') /\ wf (f_outputs f') /\
    sshape (f_inputs f') = sshape (f_inputs f) /\ sshape (f_outputs f') = sshape (f_outputs f) /\
    (forall e, inside e (sshape (f_inputs f)) -> at_ (f_inputs f') e = at_ (f_inputs f) e) /\
    (forall e, inside e (sshape (f_outputs f)) -> at_ (f_outputs f') e = at_ (f_outputs f) e).
Proof. exact @f_self_assign. Qed.
Print Assumptions C67_self_partial.

(** The same for scalar arrays, without exception. *)
Theorem C67_self_scalar :
  forall (A : Type) (a : sarr A) (it : dict item) (s : sarr A),
  wf a -> NoDup (dkeys it) -> Forall (fun kv => item_wf (snd kv)) it -> Forall (fun kv => item_py (snd kv)) it ->
  incl (dkeys it) (s_axes a) -> getitem a it = Ok s ->
  exists r, setitem a it (OpArr s) = Ok r /\ wf r /\ sshape r = sshape a /\ forall e, inside e (sshape a) -> at_ r e = at_ a e.
Proof. exact @self_assign. Qed.
Print Assumptions C67_self_scalar.

(** A number is written to the outputs that the items address, and to no others;
    the inputs stay.  It succeeds if and only if all items belong to the outputs
    and select something. *)
Theorem C67_number :
  forall (A B : Type) (f : farr A B) (it : dict item) (v : B) (sa : shape),
  wf (f_outputs f) -> NoDup (dkeys it) -> Forall (fun kv => item_wf (snd kv)) it -> Forall (fun kv => item_py (snd kv)) it ->
  broadcast_shapes (index_shapes (s_axes (f_outputs f)) it) = Ok sa ->
  (forall ax, In ax (dkeys sa) -> In ax (s_axes (f_outputs f)) -> keeps_axis (dget it ax) = false) ->
  ((exists f', f_setitem f it (FVOp (OpNum v)) = (f', Ok tt)) <->
   incl (dkeys it) (s_axes (f_outputs f)) /\ exists s, getitem (f_outputs f) it = Ok s) /\
  forall f', f_setitem f it (FVOp (OpNum v)) = (f', Ok tt) ->
    f_inputs f' = f_inputs f /\ wf (f_outputs f') /\ sshape (f_outputs f') = sshape (f_outputs f) /\
    forall e', inside e' (sshape (f_outputs f)) ->
      ((exists e, addresses (sshape (f_outputs f)) sa it e e') -> at_ (f_outputs f') e' = v) /\
      ((forall e, ~ addresses (sshape (f_outputs f)) sa it e e') -> at_ (f_outputs f') e' = at_ (f_outputs f) e').
Proof. exact @f_assign_number. Qed.
Print Assumptions C67_number.

(** A scalar array with axes is refused, whatever the items, and nothing is changed. *)
Theorem C67_array :
  forall (A B : Type) (f : farr A B) (it : dict item) (a : sarr B),
  s_axes a <> [] -> f_setitem f it (FVOp (OpArr a)) = (f, Err ValueError).
Proof. exact @f_assign_array. Qed.
Print Assumptions C67_array.

Open Scope string_scope.

Definition arr (sh : list nat) (axes : list string) (l : list Z) : sarr Z := mkS (of_list 0%Z sh l) axes.
Definition parts (f : farr Z Z) := (ravel (s_nd (f_inputs f)), ravel (s_nd (f_outputs f))).
Definition show (r : farr Z Z * res unit) := (parts (fst r), snd r).

(** bins along [x], samples along [t] *)
Definition movie : farr Z Z :=
  mkF (arr [2; 3] ["t"; "x"] [0; 1; 3; 10; 11; 13]%Z) (arr [2; 2] ["x"; "t"] [5; 50; 7; 70]%Z).

Lemma movie_ok : wf (f_inputs movie) /\ wf (f_outputs movie) /\ compatible movie.
Proof.
  split; [split; [repeat constructor; simpl; intuition discriminate|reflexivity]|].
  split; [split; [repeat constructor; simpl; intuition discriminate|reflexivity]|].
  intros ax n m [E|[E|[]]] [E'|[E'|[]]]; injection E as <- <-; injection E' as E'; try discriminate E'; subst; auto.
Qed.

Definition items : dict item := [("x", ItSlice (mkSlice (Some 1%Z) None None)); ("t", ItInt (-1))].
Definition piece : farr Z Z := match f_getitem movie items with Ok g => g | Err _ => movie end.

Example C67_self_example : f_getitem movie items = Ok piece /\ parts piece = ([11; 13]%Z, [70]%Z) /\
  show (f_setitem movie items (FVFun piece)) = (parts movie, Ok tt).
Proof. repeat split; vm_compute; reflexivity. Qed.

Example C67_self_applies : exists f', f_setitem movie items (FVFun piece) = (f', Ok tt).
Proof.
  destruct movie_ok as (Wi & Wo & C). destruct (C67_self_partial Z Z movie items piece Wi Wo C) as (f' & E & _); eauto.
  - repeat constructor; simpl; intuition discriminate.
  - repeat constructor.
  - repeat constructor.
  - intros ax i [E|[E|[]]]; injection E as <- <-; vm_compute; intuition (discriminate || eauto).
Qed.

Example C67_number_example :
  show (f_setitem movie items (FVOp (OpNum 9%Z))) = ([0; 1; 3; 10; 11; 13]%Z, [5; 50; 7; 9]%Z, Ok tt).
Proof. vm_compute. reflexivity. Qed.

Example C67_number_applies : exists f', f_setitem movie items (FVOp (OpNum 9%Z)) = (f', Ok tt).
Proof.
  destruct movie_ok as (Wi & Wo & C). destruct (C67_number Z Z movie items 9%Z []) as [H _]; auto.
  - repeat constructor; simpl; intuition discriminate.
  - repeat constructor.
  - repeat constructor.
  - intros ax [].
  - apply H. split; [intros ax [<- |[<- |[]]]; simpl; auto|]. eexists. reflexivity.
Qed.

(** An integer along an axis of bins selects one bin with its two edges, but this
    selection cannot be assigned to the same place. *)
Definition one : dict item := [("x", ItInt 1)].

Theorem C67_bin_refuted :
  exists f g : farr Z Z, wf (f_inputs f) /\ wf (f_outputs f) /\ matched f /\ bins f "x" 2 /\
    f_getitem f one = Ok g /\ bins g "x" 1 /\ snd (f_setitem f one (FVFun g)) = Err ValueError.
Proof.
  exists movie. eexists. destruct movie_ok as (Wi & Wo & _). split; [exact Wi|]. split; [exact Wo|].
  split; [intros ax n m [E|[E|[]]] [E'|[E'|[]]]; injection E as <- <-; injection E' as E'; try discriminate E'; subst; auto|].
  split; [split; simpl; auto|]. split; [reflexivity|]. split; [split; simpl; auto|]. reflexivity.
Qed.
Print Assumptions C67_bin_refuted.

(** An item along an axis that only one part has can be read but not assigned,
    neither itself nor a number. *)
Definition level : farr Z Z := mkF (arr [3] ["x"] [0; 1; 2]%Z) (arr [2] ["y"] [5; 6]%Z).

Theorem C67_one_part_refuted :
  exists f g h : farr Z Z, wf (f_inputs f) /\ wf (f_outputs f) /\ compatible f /\
    f_getitem f [("x", ItInt 0)] = Ok g /\ snd (f_setitem f [("x", ItInt 0)] (FVFun g)) = Err ValueError /\
    snd (f_setitem f [("x", ItInt 0)] (FVOp (OpNum 1%Z))) = Err ValueError /\
    f_getitem f [("y", ItInt 0)] = Ok h /\ snd (f_setitem f [("y", ItInt 0)] (FVFun h)) = Err ValueError.
Proof.
  exists level. eexists. eexists.
  split; [split; [repeat constructor; simpl; intuition discriminate|reflexivity]|].
  split; [split; [repeat constructor; simpl; intuition discriminate|reflexivity]|].
  split; [intros ax n m [E|[]] [E'|[]]; injection E as <- <-; discriminate E'|].
  repeat split; reflexivity.
Qed.
Print Assumptions C67_one_part_refuted.

(** The inputs are written before the outputs: if the outputs do not fit, the
    exception leaves a function with new inputs and old outputs. *)
Definition samples : farr Z Z := mkF (arr [3] ["x"] [0; 1; 2]%Z) (arr [3] ["x"] [5; 6; 7]%Z).
Definition wrong : farr Z Z := mkF (arr [] [] [9]%Z) (arr [2] ["y"] [8; 8]%Z).

Theorem C67_atomic_refuted :
  exists (f g f' : farr Z Z) (e : err), wf (f_inputs f) /\ wf (f_outputs f) /\ compatible f /\ wf (f_inputs g) /\ wf (f_outputs g) /\
    f_setitem f one (FVFun g) = (f', Err e) /\ parts f = ([0; 1; 2]%Z, [5; 6; 7]%Z) /\ parts f' = ([0; 9; 2]%Z, [5; 6; 7]%Z).
Proof.
  exists samples, wrong. eexists. eexists.
  split; [split; [repeat constructor; simpl; intuition discriminate|reflexivity]|].
  split; [split; [repeat constructor; simpl; intuition discriminate|reflexivity]|].
  split; [intros ax n m [E|[]] [E'|[]]; injection E as <- <-; injection E' as <-; auto|].
  split; [split; [repeat constructor; simpl; intuition discriminate|reflexivity]|].
  split; [split; [repeat constructor; simpl; intuition discriminate|reflexivity]|].
  split; [reflexivity|]. split; vm_compute; reflexivity.
Qed.
Print Assumptions C67_atomic_refuted.
