(** C102: taking elements of uncertain scalars along an axis does so in every world. *)
From Coq Require Import String List Arith ZArith Bool Lia.
From Verif Require Import Base Numpy Shapes Scalar Elementwise Uncertain UncertainTake
  Spec SpecVectorReduce SpecUncertain SpecUncertainChoice SpecUncertainAlong SpecUncertainEqual SpecUncertainJoin SpecUncertainTake UncertainTakeFacts.
Import ListNotations.
Open Scope nat_scope.
Open Scope list_scope.

(** Every element of the result is, in every world, the element of the array at the position that
    the indices have in that world; the positions of the nominal values are those of the nominal
    indices.  An absent axis, other axes that conflict and positions that do not exist are refused. *)
Theorem C102_take_along_axis :
  forall (A : Type) (x : uop A) (i : uop Z) (sh : shape) (axis : string),
  uop_wf x -> sample_free x -> has_shape x sh -> uop_wf i -> sample_free i ->
  (~ In axis (dkeys sh) -> u_take_along_axis x i axis = Err ValueError) /\
  forall num, In (axis, num) sh ->
  ((forall w, ~ conflict (sides x sh i axis w) /\ positions num i w) ->
   exists n d, let r := mkU (OpArr n) (OpArr d) in u_take_along_axis x i axis = Ok r /\ u_wf r /\
     forall w, (exists T, joint (sides x sh i axis w) T /\ op_shape (u_part r w) = (axis, size_of (op_shape (part_of i w)) axis) :: T) /\
       forall e, u_inside r w e -> exists p, index_is num (u_at i w e) p /\ u_at (Uncertain r) w e = u_at x w (set_env e axis p)) /\
  (forall er, refused x sh num i axis None er -> u_take_along_axis x i axis = Err er) /\
  (forall er, ~ conflict (sides x sh i axis None) -> positions num i None -> refused x sh num i axis (Some 0) er ->
     u_take_along_axis x i axis = Err er).
Proof. exact @u_take_spec. Qed.
Print Assumptions C102_take_along_axis.

Open Scope string_scope.

Definition arr (l : list Z) (s : list nat) (axes : list string) : operand Z := OpArr (mkS (of_list 0%Z s l) axes).

(** nominal values that are constant along the axis, and positions that depend on the sample *)
Definition ex_u : unc Z := mkU (arr [7; 8]%Z [2] ["y"]) (arr [1; 2; 3; 4; 5; 6]%Z [2; 3] ["_distribution"; "x"]).
Definition ex_i : unc Z := mkU (arr [0; 1]%Z [2] ["x"]) (arr [0; -1; 2; 1]%Z [2; 2] ["_distribution"; "x"]).

Lemma ex_wf : u_wf ex_u /\ u_wf ex_i /\ u_shape ex_u = Ok [("y", 2); ("x", 3)].
Proof.
  split; [|split; [|reflexivity]]; (split; [split; [repeat constructor; cbn; intuition discriminate|reflexivity]|];
    split; [split; [repeat constructor; cbn; intuition discriminate|reflexivity]|]; cbn; intuition discriminate).
Qed.

Definition show (r : res (unc Z)) : res ((shape * list Z) * (shape * list Z)) :=
  match r with
  | Ok u => let f o := (sshape (normalize o), ravel (s_nd (normalize o))) in Ok (f (u_nominal u), f (u_distribution u))
  | Err e => Err e
  end.

Example C102_example :
  show (u_take_along_axis (Uncertain ex_u) (Uncertain ex_i) "x") = Ok ([("x", 2); ("y", 2)], [7%Z; 8%Z; 7%Z; 8%Z], ([("x", 2); ("_distribution", 2); ("y", 2)], [1%Z; 1%Z; 6%Z; 6%Z; 3%Z; 3%Z; 5%Z; 5%Z])) /\
  show (u_take_along_axis (Uncertain ex_u) (Certain (arr [2; 0; 0; -3]%Z [2; 2] ["y"; "x"])) "x") = Ok ([("x", 2); ("y", 2)], [7%Z; 8%Z; 7%Z; 8%Z], ([("x", 2); ("_distribution", 2); ("y", 2)], [3%Z; 1%Z; 6%Z; 4%Z; 1%Z; 1%Z; 4%Z; 4%Z])) /\
  show (u_take_along_axis (Certain (arr [10; 20; 30]%Z [3] ["x"])) (Uncertain ex_i) "x") = Ok ([("x", 2)], [10%Z; 20%Z], ([("x", 2); ("_distribution", 2)], [10%Z; 30%Z; 30%Z; 20%Z])).
Proof. repeat split; vm_compute; reflexivity. Qed.

Example C102_refused_example :
  u_take_along_axis (Uncertain ex_u) (Uncertain ex_i) "z" = Err ValueError /\
  u_take_along_axis (Uncertain ex_u) (Uncertain ex_i) "_distribution" = Err ValueError /\
  u_take_along_axis (Uncertain ex_u) (Certain (arr [0; 0; 1]%Z [3] ["y"])) "x" = Err ValueError /\
  u_take_along_axis (Uncertain ex_u) (Certain (OpNum 3%Z)) "x" = Err IndexError /\
  u_take_along_axis (Uncertain ex_u) (Certain (OpNum (-4)%Z)) "x" = Err IndexError /\
  u_take_along_axis (Uncertain ex_u) (Uncertain (mkU (OpNum 2%Z) (arr [0; 0; 1]%Z [3] ["_distribution"]))) "x" = Err ValueError /\
  u_take_along_axis (Uncertain ex_u) (Uncertain (mkU (OpNum 2%Z) (arr [0; 3]%Z [2] ["_distribution"]))) "x" = Err IndexError.
Proof. repeat split; vm_compute; reflexivity. Qed.
