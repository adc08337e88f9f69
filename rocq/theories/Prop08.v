(** C08: assignment writes exactly the addressed elements. *)
From Coq Require Import String List Arith ZArith Bool Lia Sorted.
From Verif Require Import Base Numpy Shapes Scalar Spec SetitemFacts.
Import ListNotations.
Open Scope nat_scope.
Open Scope list_scope.

(** Items are Python integers, slices and index arrays ([item_py] excludes
    [None] and numpy integers, see the refutation below).  Every element that
    is addressed by some position [e] of the selection holds the value at such
    an [e]; every other element is unchanged; so are the shape and the axes. *)
Theorem C08_setitem :
  forall (A : Type) (a : sarr A) (it : dict item) (v : operand A),
  wf a -> NoDup (dkeys it) -> Forall (fun kv => item_wf (snd kv)) it ->
  Forall (fun kv => item_py (snd kv)) it -> op_wf v ->
  forall sa : shape,
  broadcast_shapes (index_shapes (s_axes a) it) = Ok sa ->
  (forall ax, In ax (dkeys sa) -> In ax (s_axes a) -> keeps_axis (dget it ax) = false) ->
  forall r : sarr A,
  incl (dkeys it) (s_axes a) -> setitem a it v = Ok r ->
  wf r /\ sshape r = sshape a /\
  forall e', inside e' (sshape a) ->
    (exists e, addresses (sshape a) sa it e e' /\ at_ r e' = op_at v e) \/
    ((forall e, ~ addresses (sshape a) sa it e e') /\ at_ r e' = at_ a e').
Proof. exact @setitem_ok. Qed.
Print Assumptions C08_setitem.

(** Assignment succeeds exactly when all the keys are axes, the selection
    exists, and the value can be broadcast to its shape. *)
Theorem C08_setitem_success :
  forall (A : Type) (a : sarr A) (it : dict item) (v : operand A) (sa : shape),
  wf a -> NoDup (dkeys it) -> Forall (fun kv => item_wf (snd kv)) it ->
  Forall (fun kv => item_py (snd kv)) it -> op_wf v ->
  broadcast_shapes (index_shapes (s_axes a) it) = Ok sa ->
  (forall ax, In ax (dkeys sa) -> In ax (s_axes a) -> keeps_axis (dget it ax) = false) ->
  ((exists r, setitem a it v = Ok r) <->
   incl (dkeys it) (s_axes a) /\ exists s, getitem a it = Ok s /\ op_fits v (sshape s)).
Proof. exact @setitem_success. Qed.
Print Assumptions C08_setitem_success.

(** Reading back gives the value, if no element is addressed twice with
    different values. *)
Theorem C08_readback :
  forall (A : Type) (a : sarr A) (it : dict item) (v : operand A) (sa : shape) (r : sarr A),
  wf a -> NoDup (dkeys it) -> Forall (fun kv => item_wf (snd kv)) it ->
  Forall (fun kv => item_py (snd kv)) it -> op_wf v ->
  broadcast_shapes (index_shapes (s_axes a) it) = Ok sa ->
  (forall ax, In ax (dkeys sa) -> In ax (s_axes a) -> keeps_axis (dget it ax) = false) ->
  (forall e1 e2 e', addresses (sshape a) sa it e1 e' -> addresses (sshape a) sa it e2 e' ->
     op_at v e1 = op_at v e2) ->
  setitem a it v = Ok r ->
  exists s, getitem r it = Ok s /\ forall e, inside e (sshape s) -> at_ s e = op_at v e.
Proof. exact @setitem_readback. Qed.
Print Assumptions C08_readback.

(** Assignment through a mask: the elements where the mask is false are
    unchanged, the others hold the value at their rank among the true positions
    along the flattened axis (and at their own position along the others). *)
Theorem C08_setitem_mask :
  forall (A : Type) (a : sarr A) (m : sarr bool) (v : operand A) (l : list (list nat)) (r : sarr A),
  wf a -> wf m -> op_wf v -> true_positions m l ->
  (In (mask_axis (s_axes m)) (s_axes a) -> In (mask_axis (s_axes m)) (s_axes m)) ->
  setitem_mask a m v = Ok r ->
  wf r /\ sshape r = sshape a /\
  forall e, inside e (sshape a) ->
    (at_ m e = false -> at_ r e = at_ a e) /\
    (at_ m e = true ->
     exists k, nth_error l k = Some (map e (s_axes m)) /\
       at_ r e = op_at v (set_env e (mask_axis (s_axes m)) k)).
Proof. exact @setitem_mask_full. Qed.
Print Assumptions C08_setitem_mask.

Theorem C08_setitem_mask_success :
  forall (A : Type) (a : sarr A) (m : sarr bool) (v : operand A),
  wf a -> wf m -> op_wf v ->
  (In (mask_axis (s_axes m)) (s_axes a) -> In (mask_axis (s_axes m)) (s_axes m)) ->
  ((exists r, setitem_mask a m v = Ok r) <->
   exists s, getitem_mask a m = Ok s /\ op_fits v (sshape s)).
Proof. exact @setitem_mask_success. Qed.
Print Assumptions C08_setitem_mask_success.

Open Scope string_scope.
Definition ex_a : sarr Z := mkS (of_list 0%Z [2; 3] [0; 1; 2; 10; 11; 12]%Z) ["x"; "y"].
Definition ex_ind : sarr Z := mkS (of_list 0%Z [2] [-1; 0]%Z) ["w"].
Definition ex_it : dict item := [("y", ItArr ex_ind); ("x", ItSlice (mkSlice (Some 1%Z) None None))].
Definition ex_v : sarr Z := mkS (of_list 0%Z [1; 2] [77; 88]%Z) ["x"; "w"].

Example C08_example :
  wf ex_a /\ NoDup (dkeys ex_it) /\ Forall (fun kv => item_wf (snd kv)) ex_it /\
  Forall (fun kv => item_py (snd kv)) ex_it /\ op_wf (OpArr ex_v) /\
  broadcast_shapes (index_shapes (s_axes ex_a) ex_it) = Ok [("w", 2)] /\
  exists r, setitem ex_a ex_it (OpArr ex_v) = Ok r /\
    ravel (s_nd r) = [0; 1; 2; 88; 11; 77]%Z.
Proof.
  split; [split; [repeat constructor; simpl; intuition discriminate|reflexivity]|].
  split; [repeat constructor; simpl; intuition discriminate|].
  split; [repeat constructor; simpl; intuition discriminate|].
  split; [repeat constructor|].
  split; [split; [repeat constructor; simpl; intuition discriminate|reflexivity]|].
  split; [reflexivity|]. eexists; repeat split.
Qed.

Example C08_example_mask :
  exists r, setitem_mask ex_a (mkS (of_list false [3] [true; false; true]) ["y"])
              (OpArr (mkS (of_list 0%Z [2; 2] [5; 6; 7; 8]%Z) ["x"; "y"])) = Ok r /\
    ravel (s_nd r) = [5; 1; 6; 7; 11; 8]%Z.
Proof. eexists; repeat split. Qed.
