(** C17: concatenate and stack place the pieces in order. *)
From Coq Require Import String List Arith ZArith Bool Lia.
From Verif Require Import Base Numpy Shapes Scalar Elementwise Along Spec AlongFacts.
Import ListNotations.
Open Scope nat_scope.
Open Scope list_scope.

(** The exact domain, shape and elements of a concatenation: the element number
    [e axis] of the piece number [k] is found behind all the earlier pieces, and
    the pieces are broadcast along the other axes. *)
Theorem C17_concatenate :
  forall (A : Type) (arrays : list (operand A)) (axis : string),
  Forall op_wf arrays ->
  let l := map normalize arrays in
  let shapes := map (fun a => resized (sshape a) axis 1) l in
  let sizes := map (fun a => size_of (sshape a) axis) l in
  let ok := l <> [] /\ (forall a, In a l -> In axis (s_axes a)) /\ ~ conflict shapes in
  (ok -> exists r sh, broadcast_shapes shapes = Ok sh /\
      na_concatenate arrays axis None = Ok r /\ wf r /\
      sshape r = resized sh axis (list_sum sizes) /\
      forall k a e, nth_error l k = Some a -> e axis < size_of (sshape a) axis ->
        at_ r (set_env e axis (list_sum (firstn k sizes) + e axis)) = bat a e) /\
  (~ ok -> na_concatenate arrays axis None = Err ValueError).
Proof. exact @concatenate_spec. Qed.
Print Assumptions C17_concatenate.

(** Slicing a piece back out of the result by indexing gives the input, with
    its other axes broadcast. *)
Theorem C17_pieces :
  forall (A : Type) (arrays : list (operand A)) (axis : string) (r : sarr A),
  Forall op_wf arrays -> na_concatenate arrays axis None = Ok r ->
  let l := map normalize arrays in
  let sizes := map (fun a => size_of (sshape a) axis) l in
  forall k a, nth_error l k = Some a ->
    let start := list_sum (firstn k sizes) in
    let stop := start + size_of (sshape a) axis in
    exists piece,
      getitem r [(axis, ItSlice (mkSlice (Some (Z.of_nat start)) (Some (Z.of_nat stop)) None))] = Ok piece /\
      wf piece /\ sshape piece = resized (sshape r) axis (size_of (sshape a) axis) /\
      forall e, inside e (sshape piece) -> at_ piece e = bat a e.
Proof. exact @concatenate_pieces. Qed.
Print Assumptions C17_pieces.

(** The exact domain, shape and elements of a stack. *)
Theorem C17_stack :
  forall (A : Type) (arrays : list (operand A)) (axis : string),
  Forall op_wf arrays ->
  let l := map normalize arrays in
  let ok := l <> [] /\ (forall a, In a l -> ~ In axis (s_axes a)) /\ ~ conflict (map sshape l) in
  (ok -> exists r sh, broadcast_shapes (map sshape l) = Ok sh /\
      na_stack arrays axis None = Ok r /\ wf r /\
      sshape r = (axis, length l) :: sh /\
      forall k a e, nth_error l k = Some a -> e axis = k -> at_ r e = bat a e) /\
  (~ ok -> na_stack arrays axis None = Err ValueError).
Proof. exact @stack_spec. Qed.
Print Assumptions C17_stack.

Open Scope string_scope.
(** pieces of sizes 2, 0 and 1 along x with different axis orders, the last one
    broadcast along y *)
Definition ex_l : list (operand Z) :=
  [OpArr (mkS (of_list 0%Z [2; 3] [1; 2; 3; 4; 5; 6]%Z) ["x"; "y"]);
   OpArr (mkS (of_list 0%Z [3; 0] []) ["y"; "x"]);
   OpArr (mkS (of_list 0%Z [1] [9]%Z) ["x"])].

Example C17_example :
  exists r, na_concatenate ex_l "x" None = Ok r /\
    sshape r = [("x", 3); ("y", 3)] /\ ravel (s_nd r) = [1; 2; 3; 4; 5; 6; 9; 9; 9]%Z /\
    na_concatenate ex_l "y" None = Err ValueError /\
    (exists p, getitem r [("x", ItSlice (mkSlice (Some 2%Z) (Some 3%Z) None))] = Ok p /\
       sshape p = [("x", 1); ("y", 3)] /\ ravel (s_nd p) = [9; 9; 9]%Z).
Proof. eexists. repeat split. eexists. repeat split. Qed.

Example C17_example_stack :
  exists r, na_stack [OpArr (mkS (of_list 0%Z [2] [1; 2]%Z) ["x"]); OpArr (mkS (of_list 0%Z [3; 1] [3; 4; 5]%Z) ["y"; "x"]);
                      OpNum 7%Z] "z" None = Ok r /\
    sshape r = [("z", 3); ("x", 2); ("y", 3)] /\
    ravel (s_nd r) = [1; 1; 1; 2; 2; 2; 3; 4; 5; 3; 4; 5; 7; 7; 7; 7; 7; 7]%Z.
Proof. eexists. repeat split. Qed.
