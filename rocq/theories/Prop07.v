(** C07: a boolean mask selects exactly the true positions. *)
From Coq Require Import String List Arith ZArith Bool Lia Sorted.
From Verif Require Import Base Numpy Shapes Scalar Spec SetitemFacts.
Import ListNotations.
Open Scope nat_scope.
Open Scope list_scope.

(** [l] is the list of the positions where the mask is true in row-major order
    of the mask.  The result has the axes of [a] that are not in the mask, in
    order, followed by one axis of size [length l]; position [k] along it holds
    the elements of [a] at the [k]-th true position. *)
Theorem C07_mask :
  forall (A : Type) (a : sarr A) (m : sarr bool) (l : list (list nat)) (r : sarr A),
  wf a -> wf m -> true_positions m l -> getitem_mask a m = Ok r ->
  wf r /\
  s_axes r = filter (fun ax => negb (smem ax (s_axes m))) (s_axes a) ++ [mask_axis (s_axes m)] /\
  (forall ax n, In (ax, n) (sshape a) -> ~ In ax (s_axes m) -> In (ax, n) (sshape r)) /\
  In (mask_axis (s_axes m), length l) (sshape r) /\
  (forall e, inside e (sshape r) ->
     exists e', inside e' (sshape a) /\ at_ m e' = true /\
       nth_error l (e (mask_axis (s_axes m))) = Some (map e' (s_axes m)) /\
       (forall ax, In ax (s_axes a) -> ~ In ax (s_axes m) -> e' ax = e ax) /\
       at_ r e = at_ a e') /\
  (forall e', inside e' (sshape a) -> at_ m e' = true ->
     exists e, inside e (sshape r) /\
       nth_error l (e (mask_axis (s_axes m))) = Some (map e' (s_axes m)) /\
       (forall ax, In ax (s_axes a) -> ~ In ax (s_axes m) -> e ax = e' ax) /\
       at_ r e = at_ a e').
Proof. exact @getitem_mask_full. Qed.
Print Assumptions C07_mask.

(** The list of true positions exists and is unique. *)
Theorem C07_true_positions :
  forall m : sarr bool, wf m ->
  exists l, true_positions m l /\ forall l', true_positions m l' -> l' = l.
Proof.
  exact (fun m W => ex_intro _ _ (conj (mask_positions m W)
           (fun l' H => true_positions_unique m l' _ H (mask_positions m W)))).
Qed.
Print Assumptions C07_true_positions.

(** Masking succeeds exactly when every axis of the mask is an axis of [a] with
    the same size, and the name of the flattened axis is not the name of an
    axis that stays. *)
Theorem C07_mask_success :
  forall (A : Type) (a : sarr A) (m : sarr bool),
  wf a -> wf m ->
  ((exists r, getitem_mask a m = Ok r) <->
   (forall ax n, In (ax, n) (sshape m) -> In (ax, n) (sshape a)) /\
   (In (mask_axis (s_axes m)) (s_axes a) -> In (mask_axis (s_axes m)) (s_axes m))).
Proof. exact @getitem_mask_success. Qed.
Print Assumptions C07_mask_success.

Open Scope string_scope.
(* a[x, y, z] = 100 x + 10 y + z; the mask has the axes z, x in that order *)
Definition ex_a : sarr Z :=
  mkS (mkNd [2; 2; 3] (fun i => fold_left (fun x k => 10 * x + Z.of_nat k)%Z i 0%Z)) ["x"; "y"; "z"].
Definition ex_m : sarr bool :=
  mkS (of_list false [3; 2] [false; true; false; false; true; true]) ["z"; "x"].

Example C07_example :
  wf ex_a /\ wf ex_m /\ mask_axis (s_axes ex_m) = "z*x" /\
  exists r, getitem_mask ex_a ex_m = Ok r /\ sshape r = [("y", 2); ("z*x", 3)] /\
    ravel (s_nd r) = [100; 2; 102; 110; 12; 112]%Z.
Proof.
  split; [split; [repeat constructor; simpl; intuition discriminate|reflexivity]|].
  split; [split; [repeat constructor; simpl; intuition discriminate|reflexivity]|].
  split; [reflexivity|]. eexists; repeat split.
Qed.

(* a 0-dimensional mask adds an axis *)
Example C07_example_0d :
  exists r, getitem_mask ex_a (mkS (scalar false) []) = Ok r /\
    sshape r = [("x", 2); ("y", 2); ("z", 3); ("boolean", 0)].
Proof. eexists; repeat split. Qed.
