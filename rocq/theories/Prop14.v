(** C14: reductions over named axes. *)
From Coq Require Import String List Arith ZArith Bool Lia Permutation.
From Verif Require Import Base Numpy Shapes Scalar Reduce Spec ReduceFacts.
Import ListNotations.
Open Scope nat_scope.
Open Scope list_scope.

(** The exact domain, shape and elements of a reduction over the axes [S] with
    an optional mask.  [f] is any function of the list of the reduced elements,
    listed in row-major order of the axes of [S] as stored; [identity] tells
    whether it is defined on the empty list. *)
Theorem C14_reduce :
  forall (A B : Type) (identity : bool) (f : list A -> B) (a : sarr A)
         (axis : option (list string)) (keepdims : bool) (w : option (operand bool)),
  wf a -> (forall o, w = Some o -> op_wf o) ->
  let S := match axis with Some l => l | None => s_axes a end in
  match broadcast_shapes (sshape a :: match w with Some o => op_shapes [o] | None => [] end) with
  | Err _ => na_reduce identity f a axis keepdims w None = Err ValueError
  | Ok sh =>
      let others := filter (fun ax => negb (smem ax S)) (dkeys sh) in
      let ok := NoDup S /\ incl S (dkeys sh) /\
        (forall o, w = Some o -> identity = true /\
           forall ax, size_of (op_shape o) ax = 1 \/ size_of (op_shape o) ax = size_of (sshape a) ax) /\
        (identity = true \/ total_size sh S <> 0 \/ total_size sh others = 0) in
      (ok -> exists r, na_reduce identity f a axis keepdims w None = Ok r /\ wf r /\
         s_axes r = (if keepdims then dkeys sh else others) /\
         (forall ax n, In (ax, n) (sshape r) <->
            In ax (s_axes r) /\ n = if smem ax S then 1 else size_of (sshape a) ax) /\
         forall e, at_ r e =
           f (map (at_ a) (filter (fun e' => match w with Some o => op_at o e' | None => true end)
                             (fibre (sshape a) (filter (fun ax => smem ax S) (dkeys sh)) e)))) /\
      (~ ok -> na_reduce identity f a axis keepdims w None = Err ValueError)
  end.
Proof. exact @reduce_spec. Qed.
Print Assumptions C14_reduce.

(** For a symmetric function the axes may be run through in any order. *)
Theorem C14_axis_order :
  forall (A B : Type) (identity : bool) (f : list A -> B) (a : sarr A)
         (axis : option (list string)) (keepdims : bool) (w : option (operand bool)) (r : sarr B),
  wf a -> (forall o, w = Some o -> op_wf o) -> symmetric f ->
  na_reduce identity f a axis keepdims w None = Ok r ->
  let S := match axis with Some l => l | None => s_axes a end in
  forall S' e, Permutation S S' ->
    at_ r e = f (map (at_ a) (filter (fun e' => match w with Some o => op_at o e' | None => true end)
                               (fibre (sshape a) S' e))).
Proof. exact @reduce_symmetric. Qed.
Print Assumptions C14_axis_order.

(** The storage order of the array and of the mask, and the order in which the
    axes are named, do not matter (nor for the exceptions). *)
Theorem C14_storage_order :
  forall (A B : Type) (identity : bool) (f : list A -> B) (a a' : sarr A)
         (axis axis' : option (list string)) (keepdims : bool) (w w' : option (operand bool)),
  wf a -> wf a' -> (forall o, w = Some o -> op_wf o) -> (forall o, w' = Some o -> op_wf o) -> symmetric f ->
  same_array a a' -> same_mask w w' ->
  Permutation match axis with Some l => l | None => s_axes a end
              match axis' with Some l => l | None => s_axes a' end ->
  same_result (na_reduce identity f a axis keepdims w None) (na_reduce identity f a' axis' keepdims w' None).
Proof. exact @reduce_same. Qed.
Print Assumptions C14_storage_order.

(** Reducing first over [T] and then over [S] is reducing over both, for every
    commutative monoid. *)
Theorem C14_two_steps :
  forall (A : Type) (op : A -> A -> A) (unit : A),
  (forall x y z, op x (op y z) = op (op x y) z) ->
  (forall x y, op x y = op y x) ->
  (forall x, op unit x = x) ->
  forall (a : sarr A) (S T : list string) (keepdims : bool) (w : option (operand bool)) (r : sarr A),
  wf a -> (forall o, w = Some o -> op_wf o) ->
  na_reduce true (fold_right op unit) a (Some (S ++ T)) keepdims w None = Ok r ->
  exists r1 r2,
    na_reduce true (fold_right op unit) a (Some T) keepdims w None = Ok r1 /\
    na_reduce true (fold_right op unit) r1 (Some S) keepdims None None = Ok r2 /\
    same_array r2 r.
Proof. exact @reduce_two_steps. Qed.
Print Assumptions C14_two_steps.

Open Scope string_scope.
Definition ex_a : sarr Z := mkS (of_list 0%Z [2; 3; 2] [1; 2; 3; 4; 5; 6; 10; 20; 30; 40; 50; 60]%Z) ["x"; "y"; "z"].
Definition ex_m : sarr bool := mkS (of_list false [3; 1] [true; false; true]) ["y"; "w"].
Definition sum := fold_right Z.add 0%Z.

Example C14_example_mask :
  exists r, na_reduce true sum ex_a (Some ["z"; "y"]) false (Some (OpArr ex_m)) None = Ok r /\
    sshape r = [("x", 2); ("w", 1)] /\ ravel (s_nd r) = [14; 140]%Z.
Proof. eexists; repeat split. Qed.

Example C14_example_keepdims :
  exists r, na_reduce true sum ex_a (Some ["y"]) true None None = Ok r /\
    sshape r = [("x", 2); ("y", 1); ("z", 2)] /\ ravel (s_nd r) = [9; 12; 90; 120]%Z.
Proof. eexists; repeat split. Qed.

Example C14_example_all :
  exists r, na_reduce true sum ex_a None false None None = Ok r /\
    sshape r = [] /\ ravel (s_nd r) = [231]%Z.
Proof. eexists; repeat split. Qed.

Example C14_example_missing : na_reduce true sum ex_a (Some ["q"]) false None None = Err ValueError.
Proof. reflexivity. Qed.

Example C14_example_min_empty :
  na_reduce false (fun l => fold_right Z.min (hd 0%Z l) l) (mkS (of_list 0%Z [2; 0] []) ["x"; "y"])
    (Some ["y"]) false None None = Err ValueError.
Proof. reflexivity. Qed.

Example C14_example_two_steps :
  exists r r1 r2, na_reduce true sum ex_a (Some ["x"; "z"]) false None None = Ok r /\
    na_reduce true sum ex_a (Some ["z"]) false None None = Ok r1 /\
    na_reduce true sum r1 (Some ["x"]) false None None = Ok r2 /\
    ravel (s_nd r1) = [3; 7; 11; 30; 70; 110]%Z /\
    ravel (s_nd r2) = [33; 77; 121]%Z /\ ravel (s_nd r) = [33; 77; 121]%Z.
Proof. do 3 eexists; repeat split. Qed.
