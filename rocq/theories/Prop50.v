(** C50: [np.repeat] repeats the elements in place. *)
From Coq Require Import String List Arith ZArith Bool Lia.
From Verif Require Import Base Numpy Shapes Scalar Elementwise Along Spec AlongFacts.
Import ListNotations.
Open Scope nat_scope.
Open Scope list_scope.

(** The exact domain and lines.  The counts are taken by position: the name of
    the axis of [repeats] plays no role, see the refutation below. *)
Theorem C50_repeat_partial :
  forall (A : Type) (a : sarr A) (repeats : operand nat) (axis : string),
  wf a -> op_wf repeats ->
  let n := size_of (sshape a) axis in
  let ok := In axis (s_axes a) /\
    (op_shape repeats = [] \/ exists ax m, op_shape repeats = [(ax, m)] /\ (m = 1 \/ m = n)) in
  (ok -> exists r, na_repeat a repeats axis = Ok r /\ wf r /\ s_axes r = s_axes a /\
     (forall x, In x (s_axes a) -> x <> axis -> size_of (sshape r) x = size_of (sshape a) x) /\
     forall e, line r axis e = expand (map (fun j => op_at repeats (fun _ => j)) (seq 0 n)) (line a axis e)) /\
  (~ ok -> na_repeat a repeats axis = Err ValueError).
Proof. exact @repeat_spec. Qed.
Print Assumptions C50_repeat_partial.

Open Scope string_scope.
Definition ex_a : sarr Z := mkS (of_list 0%Z [3; 2] [1; 2; 3; 4; 5; 6]%Z) ["x"; "y"].

Example C50_example :
  exists r, na_repeat ex_a (OpArr (mkS (of_list 0 [3] [2; 0; 1]) ["x"])) "x" = Ok r /\
    sshape r = [("x", 3); ("y", 2)] /\ ravel (s_nd r) = [1; 2; 1; 2; 5; 6]%Z /\
    na_repeat ex_a (OpArr (mkS (of_list 0 [2] [2; 0]) ["x"])) "x" = Err ValueError.
Proof. eexists. repeat split. Qed.

(** Counts that vary along y are accepted for the axis x, for which they should
    be refused or vary along y. *)
Theorem C50_repeat_by_name_refuted :
  exists (a : sarr Z) (c : sarr nat) (r : sarr Z), wf a /\ wf c /\ s_axes c = ["y"] /\
    ~ fits_in (sshape c) [("x", size_of (sshape a) "x")] /\
    na_repeat a (OpArr c) "x" = Ok r /\ ravel (s_nd r) = [1; 2; 3; 4; 3; 4]%Z.
Proof.
  exists (mkS (of_list 0%Z [2; 2] [1; 2; 3; 4]%Z) ["x"; "y"]), (mkS (of_list 0 [2] [1; 2]) ["y"]).
  eexists.
  split; [split; [repeat constructor; simpl; intuition discriminate|reflexivity]|].
  split; [split; [repeat constructor; simpl; intuition discriminate|reflexivity]|].
  split; [reflexivity|]. split; [|split; reflexivity].
  intros H. destruct (H "y" 2 (or_introl eq_refl)) as [m [[E|[]] _]]. discriminate.
Qed.
Print Assumptions C50_repeat_by_name_refuted.
