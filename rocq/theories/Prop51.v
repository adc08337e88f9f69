(** C51: cumulative functions with [out]. *)
From Coq Require Import String List Arith ZArith Bool Lia.
From Verif Require Import Base Numpy Shapes Scalar Elementwise Along Spec AlongFacts.
Import ListNotations.
Open Scope nat_scope.
Open Scope list_scope.

(** An [out] array that stores its axes in the order of the input gets the
    result when it has its shape, and is refused otherwise. *)
Theorem C51_cumulative_out_partial :
  forall (A B : Type) (scan : list A -> B) (initial : bool) (a : sarr A) (axis : string) (o r : sarr B),
  wf a -> s_axes o = s_axes a -> wf o -> na_cumulative scan initial a (Some [axis]) None = Ok r ->
  (sshape o = sshape r -> na_cumulative scan initial a (Some [axis]) (Some o) = Ok r) /\
  (sshape o <> sshape r -> na_cumulative scan initial a (Some [axis]) (Some o) = Err ValueError).
Proof. exact @cumulative_out. Qed.
Print Assumptions C51_cumulative_out_partial.

Open Scope string_scope.
Definition ex_a : sarr Z := mkS (of_list 0%Z [2; 3] [1; 2; 3; 4; 5; 6]%Z) ["x"; "y"].
Example C51_example :
  exists r, na_cumulative (sum_list Z.add 0%Z) false ex_a (Some ["y"])
              (Some (mkS (of_list 0%Z [2; 3] [7; 7; 7; 7; 7; 7]%Z) ["x"; "y"])) = Ok r /\
    sshape r = [("x", 2); ("y", 3)] /\ ravel (s_nd r) = [1; 3; 6; 4; 9; 15]%Z.
Proof. eexists; repeat split. Qed.

(** With [out] stored in the other order the sums run along the wrong axis and
    the result is mislabelled. *)
Theorem C51_cumulative_out_order_refuted :
  exists (a o r r' : sarr Z), wf a /\ wf o /\ same_shape (sshape o) (sshape a) /\
    na_cumulative (sum_list Z.add 0%Z) false a (Some ["x"]) None = Ok r /\
    na_cumulative (sum_list Z.add 0%Z) false a (Some ["x"]) (Some o) = Ok r' /\
    ~ same_array r' r /\ at_ r (fun ax => if String.eqb ax "x" then 1 else 0) = 4%Z /\
    at_ r' (fun ax => if String.eqb ax "x" then 1 else 0) = 3%Z.
Proof.
  exists (mkS (of_list 0%Z [2; 2] [1; 2; 3; 4]%Z) ["x"; "y"]), (mkS (of_list 0%Z [2; 2] [0; 0; 0; 0]%Z) ["y"; "x"]).
  do 2 eexists.
  split; [split; [repeat constructor; simpl; intuition discriminate|reflexivity]|].
  split; [split; [repeat constructor; simpl; intuition discriminate|reflexivity]|].
  split; [intros ax n; simpl; tauto|].
  split; [reflexivity|]. split; [reflexivity|]. split; [|split; reflexivity].
  intros [_ H]. specialize (H (fun ax => if String.eqb ax "x" then 1 else 0)). cbv in H.
  assert (3%Z = 4%Z); [|discriminate]. apply H. intros ax n Hin. destruct Hin as [E|[E|[]]]; injection E as <- <-; auto.
Qed.
Print Assumptions C51_cumulative_out_order_refuted.
