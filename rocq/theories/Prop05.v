(** C05: integer, slice and advanced indexing by name. *)
From Coq Require Import String List Arith ZArith Bool Lia.
From Verif Require Import Base BaseFacts Numpy Shapes Scalar Spec AlignFacts GetitemFacts.
Import ListNotations.
Open Scope nat_scope.
Open Scope list_scope.

(** Every element of the result is the element of [a] that the items select;
    the axes are the broadcasted axes of the index arrays followed by the axes
    that keep their name, and a sliced axis has as many positions as the slice
    selects. *)
Theorem C05_getitem :
  forall (A : Type) (a : sarr A) (it : dict item) (r : sarr A),
  wf a -> NoDup (dkeys it) -> Forall (fun kv => item_wf (snd kv)) it ->
  getitem a it = Ok r ->
  wf r /\
  (forall e, inside e (sshape r) ->
     exists e', inside e' (sshape a) /\ at_ r e = at_ a e' /\
       forall ax n, In (ax, n) (sshape a) -> selects n (dget it ax) e ax (e' ax)) /\
  exists sa, broadcast_shapes (index_shapes (s_axes a) it) = Ok sa /\
    s_axes r = dkeys sa ++ filter (fun ax => keeps_axis (dget it ax)) (s_axes a) /\
    (forall ax n, In (ax, n) sa -> In (ax, n) (sshape r)) /\
    (forall ax n m, In (ax, n) (sshape a) -> keeps_axis (dget it ax) = true ->
       In (ax, m) (sshape r) ->
       match dget it ax with
       | Some (ItSlice s) => forall i, i < m <-> exists p, slice_selects s n i p
       | _ => m = n
       end).
Proof. exact @getitem_full. Qed.
Print Assumptions C05_getitem.

(** Indexing succeeds exactly when the index arrays broadcast, every item is in
    range (slices have a nonzero step), and no axis of an index array has the
    name of an axis that is kept. *)
Theorem C05_getitem_success :
  forall (A : Type) (a : sarr A) (it : dict item),
  wf a -> NoDup (dkeys it) -> Forall (fun kv => item_wf (snd kv)) it ->
  ((exists r, getitem a it = Ok r) <->
   exists sa, broadcast_shapes (index_shapes (s_axes a) it) = Ok sa /\
     (forall ax n, In (ax, n) (sshape a) -> item_ok n (dget it ax)) /\
     (forall ax, In ax (dkeys sa) -> In ax (s_axes a) -> keeps_axis (dget it ax) = false)).
Proof. exact @getitem_success. Qed.
Print Assumptions C05_getitem_success.

(** An out-of-range integer (in the item itself or in an index array) raises
    IndexError. *)
Theorem C05_getitem_out_of_range :
  forall (A : Type) (a : sarr A) (it : dict item) (sa : shape) (ax : string) (n : nat),
  wf a -> NoDup (dkeys it) -> Forall (fun kv => item_wf (snd kv)) it ->
  broadcast_shapes (index_shapes (s_axes a) it) = Ok sa ->
  In (ax, n) (sshape a) ->
  keeps_axis (dget it ax) = false -> ~ item_ok n (dget it ax) ->
  (forall ax' s, In ax' (s_axes a) -> dget it ax' = Some (ItSlice s) -> sl_step s <> Some 0%Z) ->
  getitem a it = Err IndexError.
Proof. exact @getitem_range_error. Qed.
Print Assumptions C05_getitem_out_of_range.

Open Scope string_scope.
(* a[i, j, k] = 100 i + 10 j + k *)
Definition ex_a : sarr Z :=
  mkS (mkNd [2; 4; 3] (fun i => fold_left (fun x k => 10 * x + Z.of_nat k)%Z i 0%Z)) ["x"; "y"; "z"].
Definition ex_ind : sarr Z := mkS (of_list 0%Z [2] [-1; 0]%Z) ["w"].
Definition ex_it : dict item :=
  [("z", ItArr ex_ind); ("absent", ItInt 7);
   ("y", ItSlice (mkSlice (Some (-1)%Z) None (Some (-2)%Z))); ("x", ItInt (-1)%Z)].

Example C05_example :
  wf ex_a /\ NoDup (dkeys ex_it) /\ Forall (fun kv => item_wf (snd kv)) ex_it /\
  exists r, getitem ex_a ex_it = Ok r /\ sshape r = [("w", 2); ("y", 2)] /\
    ravel (s_nd r) = [132; 112; 130; 110]%Z.
Proof.
  split; [split; [repeat constructor; simpl; intuition discriminate|reflexivity]|].
  split; [repeat constructor; simpl; intuition discriminate|].
  split; [repeat constructor; simpl; intuition discriminate|].
  eexists; repeat split.
Qed.

Example C05_example_range :
  getitem ex_a [("x", ItInt 2)] = Err IndexError /\
  getitem ex_a [("x", ItInt (-3)%Z)] = Err IndexError /\
  getitem ex_a [("z", ItArr (mkS (of_list 0%Z [2] [0; 3]%Z) ["w"]))] = Err IndexError.
Proof. repeat split. Qed.
