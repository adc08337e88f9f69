(** C48: [out] and [where] of elementwise operations, by name. *)
From Coq Require Import String List Arith ZArith Bool Lia.
From Verif Require Import Base Numpy Shapes Scalar Elementwise Spec ElementwiseFacts.
Import ListNotations.
Open Scope nat_scope.
Open Scope list_scope.

(** With [where] and without [out]: [where] may not add axes; the result has the
    shape of the inputs broadcast with [where], and the selected elements are
    computed.  ([uninit] is the arbitrary content of a new array.) *)
Theorem C48_where :
  forall (A B : Type) (uninit : list nat -> B) (fs : list (list A -> B))
         (inputs : list (operand A)) (w : sarr bool) (sh0 : shape),
  Forall op_wf inputs -> wf w -> broadcast_shapes (op_shapes inputs) = Ok sh0 ->
  let r := na_ufunc uninit fs inputs (Some w) (map (fun _ => None) fs) in
  (~ incl (s_axes w) (dkeys sh0) -> r = Err ValueError) /\
  (incl (s_axes w) (dkeys sh0) ->
   match broadcast_shapes (op_shapes inputs ++ [sshape w]) with
   | Err _ => r = Err ValueError
   | Ok sh => exists rs, r = Ok rs /\
       Forall2 (fun f r => wf r /\ sshape r = sh /\
         forall e, bat w e = true -> at_ r e = f (map (fun o => op_at o e) inputs)) fs rs
   end).
Proof. exact @ufunc_where_spec. Qed.
Print Assumptions C48_where.

(** With [out] (one function and one entry of [outs] for each output): the
    results are the given outputs, with their axes; selected elements are
    computed and the other elements of a given output are kept.  It raises
    exactly when the outputs have different shapes or an input or [where] does
    not fit into it.  (Partial: when several outputs are given they must store
    their axes in the same order, see below.) *)
Theorem C48_out_partial :
  forall (A B : Type) (uninit : list nat -> B) (fs : list (list A -> B))
         (inputs : list (operand A)) (w : option (sarr bool)) (outs : list (option (sarr B))) (o1 : sarr B),
  Forall op_wf inputs -> match w with Some m => wf m | None => True end ->
  length fs = length outs ->
  In (Some o1) outs ->
  (forall o, In (Some o) outs -> wf o /\ s_axes o = s_axes o1) ->
  let sh := sshape o1 in
  let ok := (forall o, In (Some o) outs -> sshape o = sh) /\ Forall (fun i => op_fits i sh) inputs /\
            match w with Some m => fits_in (sshape m) sh | None => True end in
  (ok -> exists rs, na_ufunc uninit fs inputs w outs = Ok rs /\
     Forall2 (fun p r => wf r /\ sshape r = sh /\
       forall e, inside e sh ->
         (match w with Some m => bat m e | None => true end = true ->
            at_ r e = fst p (map (fun i => op_at i e) inputs)) /\
         (match w with Some m => bat m e | None => true end = false ->
            forall o, snd p = Some o -> at_ r e = at_ o e)) (combine fs outs) rs) /\
  (~ ok -> na_ufunc uninit fs inputs w outs = Err ValueError).
Proof. exact @ufunc_out_spec. Qed.
Print Assumptions C48_out_partial.

Open Scope string_scope.
Definition ex_a : sarr Z := mkS (of_list 0%Z [2; 3] [0; 1; 2; 10; 11; 12]%Z) ["x"; "y"].
Definition ex_o : sarr Z := mkS (of_list 0%Z [3; 2] [100; 101; 102; 103; 104; 105]%Z) ["y"; "x"].
Definition ex_m : sarr bool := mkS (of_list false [3] [true; false; true]) ["y"].
Definition add (l : list Z) : Z := fold_left Z.add l 0%Z.

Example C48_example_where :
  exists r, na_ufunc (fun _ => 7%Z) [add] [OpArr ex_a; OpNum 5%Z] (Some ex_m) [None] = Ok [r] /\
    sshape r = [("x", 2); ("y", 3)] /\ ravel (s_nd r) = [5; 7; 7; 15; 7; 17]%Z.
Proof. eexists; repeat split. Qed.

Example C48_example_out :
  exists r, na_ufunc (fun _ => 7%Z) [add] [OpArr ex_a; OpNum 5%Z] (Some ex_m) [Some ex_o] = Ok [r] /\
    sshape r = [("y", 3); ("x", 2)] /\ ravel (s_nd r) = [5; 15; 102; 103; 7; 17]%Z.
Proof. eexists; repeat split. Qed.

Example C48_example_small_out :
  na_ufunc (fun _ => 7%Z) [add] [OpArr ex_a; OpNum 5%Z] None [Some (mkS (of_list 0%Z [2; 1] [0; 0]%Z) ["x"; "y"])]
  = Err ValueError.
Proof. reflexivity. Qed.

(** Two outputs of the same named shape whose axes are stored in different
    orders: the second one is filled with transposed data. *)
Theorem C48_two_outputs_refuted :
  exists (a o1 o2 r1 r2 : sarr Z) (e : env),
    wf a /\ wf o1 /\ wf o2 /\ same_shape (sshape o1) (sshape o2) /\ same_shape (sshape a) (sshape o1) /\
    na_ufunc (fun _ => 0%Z) [add; add] [OpArr a] None [Some o1; Some o2] = Ok [r1; r2] /\
    inside e (sshape a) /\ at_ r1 e = at_ a e /\ at_ r2 e <> at_ a e.
Proof.
  exists (mkS (of_list 0%Z [2; 2] [0; 1; 10; 11]%Z) ["x"; "y"]),
         (mkS (of_list 0%Z [2; 2] [0; 0; 0; 0]%Z) ["x"; "y"]),
         (mkS (of_list 0%Z [2; 2] [0; 0; 0; 0]%Z) ["y"; "x"]).
  do 2 eexists. exists (fun ax => if String.eqb ax "x" then 1 else 0).
  split; [split; [repeat constructor; simpl; intuition discriminate|reflexivity]|].
  split; [split; [repeat constructor; simpl; intuition discriminate|reflexivity]|].
  split; [split; [repeat constructor; simpl; intuition discriminate|reflexivity]|].
  split; [intros ax n; simpl; tauto|]. split; [intros ax n; simpl; tauto|].
  split; [reflexivity|]. split.
  - intros ax n [E|[E|[]]]; injection E as <- <-; simpl; auto.
  - split; [reflexivity|]. vm_compute. discriminate.
Qed.
Print Assumptions C48_two_outputs_refuted.
