(** C104: percentiles of uncertain scalars are those of every world. *)
From Coq Require Import String List Arith ZArith Bool Lia Permutation.
From Verif Require Import Base Numpy Shapes Scalar Elementwise Uncertain UncertainQuantile
  Spec SpecUncertain SpecUncertainChoice SpecUncertainAlong SpecUncertainEqual SpecUncertainJoin SpecUncertainQuantile UncertainQuantileFacts.
Import ListNotations.
Open Scope nat_scope.
Open Scope list_scope.

(** The percentile in a world combines the elements of that world along the axes, for the
    percentage of that world; everything else is refused.  Partial: for an uncertain array the
    percentages must be certain, see [C104_both_uncertain_refuted], and arrays without elements are left
    out. *)
Theorem C104_percentile_partial :
  forall (A Q B : Type) (valid : Q -> bool) (perc : Q -> list A -> B), (forall x, symmetric (perc x)) ->
  forall (x : uop A) (q : uop Q) (sh : shape) (axis : option (list string)) (keepdims : bool),
  uop_wf x -> sample_free x -> has_shape x sh -> uop_wf q -> sample_free q ->
  (forall w ax n, In (ax, n) (full_shape w (x, sh)) -> n <> 0) ->
  let l := match axis with Some l => l | None => dkeys sh end in
  let ok := NoDup l /\ incl l (dkeys sh) /\ forall w, percentages valid x q l w in
  (ok -> exists n d, let r := mkU (OpArr n) (OpArr d) in u_percentile valid perc x q axis keepdims = Ok r /\ u_wf r /\
     forall w,
       (forall ax k, In (ax, k) (op_shape (u_part r w)) <->
          In (ax, k) (op_shape (part_of q w)) \/ (In (ax, k) (op_shape (part_of x w)) /\ ~ In ax l) \/ (keepdims = true /\ In ax l /\ k = 1)) /\
       forall e, u_inside r w e -> u_at (Uncertain r) w e = perc (u_at q w e) (map (u_at x w) (fibre sh l e))) /\
  (~ ok -> u_percentile valid perc x q axis keepdims = Err ValueError).
Proof. exact @u_percentile_spec. Qed.
Print Assumptions C104_percentile_partial.

(** Percentages with samples are refused for every array with samples. *)
Theorem C104_both_uncertain_refuted :
  forall (A Q B : Type) (valid : Q -> bool) (perc : Q -> list A -> B), (forall x, symmetric (perc x)) ->
  forall (x : uop A) (q : uop Q) (sh : shape) (axis : option (list string)) (keepdims : bool),
  uop_wf x -> sample_free x -> has_shape x sh -> uop_wf q -> sample_free q ->
  (forall w ax n, In (ax, n) (full_shape w (x, sh)) -> n <> 0) ->
  In axis_distribution (dkeys (op_shape (distribution_of x))) -> In axis_distribution (dkeys (op_shape (distribution_of q))) ->
  u_percentile valid perc x q axis keepdims = Err ValueError.
Proof. exact @u_percentile_both. Qed.
Print Assumptions C104_both_uncertain_refuted.

Open Scope string_scope.

Definition arr (l : list Z) (s : list nat) (axes : list string) : operand Z := OpArr (mkS (of_list 0%Z s l) axes).

(** the number of elements that are at most [x] stands for a percentile *)
Definition rank (x : Z) (l : list Z) : Z := Z.of_nat (length (filter (fun y => (y <=? x)%Z) l)).
Definition in_range (x : Z) : bool := (0 <=? x)%Z && (x <=? 100)%Z.

(** nominal values that are constant along an axis, and percentages that depend on the sample *)
Definition ex_u : unc Z := mkU (arr [7; 30]%Z [2] ["y"]) (arr [1; 20; 3; 40; 5; 60]%Z [2; 3] ["_distribution"; "x"]).
Definition ex_q : uop Z := Certain (arr [4; 30]%Z [2] ["q"]).
Definition ex_v : unc Z := mkU (OpNum 25%Z) (arr [10; 50]%Z [2] ["_distribution"]).

Example C104_applies : (forall x, symmetric (rank x)) /\ u_wf ex_u /\ uop_wf ex_q /\ u_wf ex_v /\ has_shape (Uncertain ex_u) [("y", 2); ("x", 3)] /\
  (forall w ax n, In (ax, n) (full_shape w (Uncertain ex_u, [("y", 2); ("x", 3)])) -> n <> 0) /\
  forall w, percentages in_range (Uncertain ex_u) ex_q ["x"] w.
Proof.
  split.
  { intros x l l' P. unfold rank. f_equal. induction P; simpl; auto.
    - destruct (x0 <=? x)%Z; simpl; auto.
    - destruct (y <=? x)%Z, (x0 <=? x)%Z; auto.
    - congruence. }
  split. { split; [split; [repeat constructor; cbn; intuition discriminate|reflexivity]|].
    split; [split; [repeat constructor; cbn; intuition discriminate|reflexivity]|]. cbn. intuition discriminate. }
  split. { split; [repeat constructor; cbn; intuition discriminate|reflexivity]. }
  split. { split; [exact I|]. split; [split; [repeat constructor; cbn; intuition discriminate|reflexivity]|]. cbn. intuition discriminate. }
  split; [reflexivity|]. split.
  { intros [w|] ax n H; cbn in H; repeat (destruct H as [H|H]; [injection H as <- <-; discriminate|]); destruct H. }
  intros [w|]; (split; [intros ax [<- |[]]; cbn; intuition discriminate|]; split; [cbn; lia|]); intros e H;
    assert (e "q" < 2) by (apply (H "q"); now left); cbn; unfold bclamp; cbn; destruct (e "q") as [|[|?]]; try reflexivity; lia.
Qed.

Definition show (r : res (unc Z)) : res ((shape * list Z) * (shape * list Z)) :=
  match r with
  | Ok u => let f o := (sshape (normalize o), ravel (s_nd (normalize o))) in Ok (f (u_nominal u), f (u_distribution u))
  | Err e => Err e
  end.

Example C104_example :
  show (u_percentile in_range rank (Uncertain ex_u) ex_q (Some ["x"]) false) = Ok ([("q", 2); ("y", 2)], [0%Z; 0%Z; 3%Z; 3%Z], ([("q", 2); ("_distribution", 2)], [2%Z; 0%Z; 3%Z; 1%Z])) /\
  show (u_percentile in_range rank (Uncertain ex_u) ex_q (Some ["y"; "x"]) true) = Ok ([("q", 2); ("y", 1); ("x", 1)], [0%Z; 6%Z], ([("q", 2); ("_distribution", 2); ("x", 1); ("y", 1)], [4%Z; 0%Z; 6%Z; 2%Z])) /\
  show (u_percentile in_range rank (Uncertain ex_u) (Certain (OpNum 6%Z)) None false) = Ok ([], [0%Z], ([("_distribution", 2)], [4%Z; 2%Z])) /\
  show (u_percentile in_range rank (Certain (arr [10; 20; 30; 60]%Z [4] ["x"])) (Uncertain ex_v) (Some ["x"]) false) = Ok ([], [2%Z], ([("_distribution", 2)], [1%Z; 3%Z])).
Proof. repeat split; vm_compute; reflexivity. Qed.

Example C104_refused_example :
  u_percentile in_range rank (Uncertain ex_u) (Uncertain ex_v) (Some ["x"]) false = Err ValueError /\
  u_percentile in_range rank (Uncertain ex_u) ex_q (Some ["z"]) false = Err ValueError /\
  u_percentile in_range rank (Uncertain ex_u) ex_q (Some ["_distribution"]) false = Err ValueError /\
  u_percentile in_range rank (Uncertain ex_u) ex_q (Some ["x"; "x"]) false = Err ValueError /\
  u_percentile in_range rank (Uncertain ex_u) (Certain (OpNum 101%Z)) (Some ["x"]) false = Err ValueError /\
  u_percentile in_range rank (Uncertain ex_u) (Certain (arr [4; 30]%Z [2] ["y"])) (Some ["x"]) false = Err ValueError /\
  u_percentile in_range rank (Uncertain ex_u) (Certain (arr [4]%Z [1; 1; 1] ["p"; "q"; "r"])) (Some ["x"]) false = Err ValueError /\
  u_percentile in_range rank (Certain (arr [10; 20]%Z [2] ["x"])) (Uncertain (mkU (OpNum 25%Z) (arr [10; 101]%Z [2] ["_distribution"]))) (Some ["x"]) false = Err ValueError.
Proof. repeat split; vm_compute; reflexivity. Qed.
