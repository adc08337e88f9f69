(** C44: where, clip and copyto are elementwise by name. *)
From Coq Require Import String List Arith ZArith Bool Lia.
From Verif Require Import Base Numpy Shapes Scalar Elementwise Spec ElementwiseFacts.
Import ListNotations.
Open Scope nat_scope.
Open Scope list_scope.

Theorem C44_where :
  forall (A : Type) (c : operand bool) (x y : operand A),
  op_wf c -> op_wf x -> op_wf y ->
  match broadcast_shapes [op_shape c; op_shape x; op_shape y] with
  | Ok sh => exists r, na_where c x y = Ok r /\ wf r /\ sshape r = sh /\
               forall e, at_ r e = if op_at c e then op_at x e else op_at y e
  | Err _ => na_where c x y = Err ValueError
  end.
Proof. exact @where_spec. Qed.
Print Assumptions C44_where.

(** [copyto] changes exactly the elements where the mask is true; it raises
    exactly when the source or the mask does not fit into the destination.
    (Partial: for a destination that holds an ndarray, see below.) *)
Theorem C44_copyto_partial :
  forall (A : Type) (dst : sarr A) (src : operand A) (w : operand bool),
  wf dst -> op_wf src -> op_wf w ->
  (op_fits src (sshape dst) /\ op_fits w (sshape dst) ->
   exists r, na_copyto true dst src w = Ok r /\ wf r /\ sshape r = sshape dst /\
     forall e, at_ r e = if op_at w e then op_at src e else at_ dst e) /\
  (~ (op_fits src (sshape dst) /\ op_fits w (sshape dst)) ->
   na_copyto true dst src w = Err ValueError).
Proof. exact @copyto_spec. Qed.
Print Assumptions C44_copyto_partial.

(** [clip], for any functions [minimum] and [maximum].  (Partial: the array and
    the bounds must fit into the shape of the array or of [out]; bounds do not
    extend the array, see below.) *)
Theorem C44_clip_partial :
  forall (A : Type) (minimum maximum : A -> A -> A)
         (a : operand A) (lo hi : option (operand A)) (out : option (sarr A)),
  op_wf a -> match lo with Some b => op_wf b | None => True end ->
  match hi with Some b => op_wf b | None => True end ->
  match out with Some o => wf o | None => True end ->
  let sh := match out with Some o => sshape o | None => op_shape a end in
  let ok := op_fits a sh /\ match lo with Some b => op_fits b sh | None => True end
            /\ match hi with Some b => op_fits b sh | None => True end in
  (ok -> exists r, na_clip minimum maximum a lo hi out = Ok r /\ wf r /\ sshape r = sh /\
     forall e, at_ r e =
       let v := match lo with Some b => maximum (op_at a e) (op_at b e) | None => op_at a e end in
       match hi with Some b => minimum v (op_at b e) | None => v end) /\
  (~ ok -> na_clip minimum maximum a lo hi out = Err ValueError).
Proof. exact @clip_spec. Qed.
Print Assumptions C44_clip_partial.

Open Scope string_scope.
Definition ex_a : sarr Z := mkS (of_list 0%Z [2; 3] [0; 1; 2; 10; 11; 12]%Z) ["x"; "y"].
Definition ex_b : sarr Z := mkS (of_list 0%Z [3; 2] [0; -10; -1; -11; -2; -12]%Z) ["y"; "x"].
Definition ex_m : sarr bool := mkS (of_list false [3] [true; false; true]) ["y"].

Example C44_example_where :
  exists r, na_where (OpArr ex_m) (OpArr ex_a) (OpArr ex_b) = Ok r /\
    sshape r = [("y", 3); ("x", 2)] /\ ravel (s_nd r) = [0; 10; -1; -11; 2; 12]%Z.
Proof. eexists; repeat split. Qed.

Example C44_example_copyto :
  exists r, na_copyto true ex_a (OpArr ex_b) (OpArr ex_m) = Ok r /\
    sshape r = [("x", 2); ("y", 3)] /\ ravel (s_nd r) = [0; 1; -2; -10; 11; -12]%Z.
Proof. eexists; repeat split. Qed.

Example C44_example_clip :
  exists r, na_clip Z.min Z.max (OpArr ex_a) (Some (OpNum 1%Z))
              (Some (OpArr (mkS (of_list 0%Z [2] [5; 11]%Z) ["x"]))) None = Ok r /\
    sshape r = [("x", 2); ("y", 3)] /\ ravel (s_nd r) = [1; 1; 2; 10; 11; 11]%Z.
Proof. eexists; repeat split. Qed.

Example C44_example_clip_fail :
  na_clip Z.min Z.max (OpArr ex_a) (Some (OpArr (mkS (of_list 0%Z [2] [5; 11]%Z) ["w"]))) None None
  = Err ValueError.
Proof. reflexivity. Qed.

(** A bound with an axis that the array does not have is refused, although the
    same computation written with [minimum] and [maximum] broadcasts. *)
Theorem C44_clip_broadcast_refuted :
  exists (a b r : sarr Z), wf a /\ wf b /\
    array_ufunc (fun l => Z.max (nth 0 l 0%Z) (nth 1 l 0%Z)) [OpArr a; OpArr b] = Ok r /\
    na_clip Z.min Z.max (OpArr a) (Some (OpArr b)) None None = Err ValueError.
Proof.
  exists ex_a, (mkS (of_list 0%Z [2] [5; 11]%Z) ["w"]). eexists.
  split; [split; [repeat constructor; simpl; intuition discriminate|reflexivity]|].
  split; [split; [repeat constructor; simpl; intuition discriminate|reflexivity]|].
  split; reflexivity.
Qed.
Print Assumptions C44_clip_broadcast_refuted.

(** If the destination holds a Python number, the mask is ignored: the element
    changes although the mask is false. *)
Theorem C44_copyto_number_refuted :
  exists (dst src r : sarr Z), wf dst /\ wf src /\
    na_copyto false dst (OpArr src) (OpNum false) = Ok r /\
    at_ r (fun _ => 0) <> at_ dst (fun _ => 0).
Proof.
  exists (mkS (scalar 1%Z) []), (mkS (scalar 2%Z) []). eexists.
  split; [split; [constructor|reflexivity]|]. split; [split; [constructor|reflexivity]|].
  split; [reflexivity|]. unfold at_. simpl. discriminate.
Qed.
Print Assumptions C44_copyto_number_refuted.
