(** C32: the fractional index of a percentile of a probability mass function. *)
From Coq Require Import String List Arith ZArith Bool Lia QArith Qcanon.
From Verif Require Import Base BaseFacts Numpy Shapes Scalar Reorder Elementwise Reduce Along Sorting Rank Pdf Spec SpecPdf PdfFacts.
Import ListNotations.
Open Scope nat_scope.
Open Scope list_scope.

(** The piecewise-linear cumulative sum of every line has, at the returned
    position, [q] percent of the total of the line.  [q] may be an array with
    axes of its own and with axes of [a].  The elements of [a] need not be
    nonnegative, only the total must be positive.  Missing from the full
    statement: the end [q = 100], and axes of [q] along which [a] has the size 1
    but [q] has not; see below. *)
Theorem C32_argpercentile_partial :
  forall (a : sarr Qc) (q : operand Qc) (axis : option (list string)) (ax : string) (sh : shape),
  wf a -> op_wf q -> In ax (s_axes a) -> match axis with Some l => l | None => s_axes a end = [ax] ->
  ~ In ax (dkeys (op_shape q)) ->
  (forall b m k, In (b, m) (op_shape q) -> In (b, k) (sshape a) -> m = 1 \/ m = k) ->
  broadcast_shapes [others_of (sshape a) ax; op_shape q] = Ok sh -> (forall b k, In (b, k) sh -> k <> 0) ->
  (forall e, inside e sh -> (0 < sum (line a ax e))%Qc /\ (0 <= op_at q e)%Qc /\ (op_at q e < number 100)%Qc) ->
  exists x, argpercentile a q axis = Ok (ax, x) /\ wf x /\ same_shape (sshape x) sh /\
    forall e, inside e sh -> cumulative_at (line a ax e) (at_ x e) (op_at q e * sum (line a ax e) / number 100)%Qc.
Proof. exact argpercentile_spec. Qed.
Print Assumptions C32_argpercentile_partial.

(** Arrays without axes, and several axes, raise. *)
Theorem C32_scalar : forall a q axis, sshape a = [] -> argpercentile a q axis = Err ValueError.
Proof. exact argpercentile_scalar. Qed.
Print Assumptions C32_scalar.

Theorem C32_axes : forall a q axis,
  length (match axis with Some l => l | None => s_axes a end) <> 1 -> argpercentile a q axis = Err ValueError.
Proof. exact argpercentile_axes. Qed.
Print Assumptions C32_axes.

Open Scope string_scope.

Definition numbers (l : list Z) : list Qc := map number l.
Definition heights : sarr Qc := mkS (of_list 0%Qc [2; 3] (numbers [1; 2; 1;  0; 3; 1]%Z)) ["x"; "y"].
Definition levels : operand Qc := OpArr (mkS (of_list 0%Qc [2] (numbers [25; 75]%Z)) ["x"]).
Definition show (r : res (string * sarr Qc)) :=
  match r with Ok (s, a) => Ok (s, sshape a, map this (ravel (s_nd a))) | Err e => Err e end.

(** At 100 percent the position should be the end of the array (here 3, or
    somewhere in a final run of zeros), but it is -1. *)
Theorem C32_hundred_refuted :
  exists (a : sarr Qc) (x : sarr Qc), wf a /\ sshape a = [("y", 3)] /\
    (forall e, inside e (sshape a) -> (0 < at_ a e)%Qc) /\
    argpercentile a (OpNum (number 100)) None = Ok ("y", x) /\ sshape x = [] /\
    (forall e, this (at_ x e) = ((-1) # 1)%Q) /\
    forall e, ~ cumulative_at (line a "y" e) (at_ x e) (number 100 * sum (line a "y" e) / number 100)%Qc.
Proof.
  set (a := mkS (of_list 0%Qc [3] (numbers [1; 2; 1]%Z)) ["y"]).
  destruct (argpercentile a (OpNum (number 100)) None) as [[ax x]|] eqn:E; [|vm_compute in E; discriminate].
  assert (S : ax = "y" /\ sshape x = [] /\ this (nget (s_nd x) []) = ((-1) # 1)%Q).
  { assert (H : match argpercentile a (OpNum (number 100)) None with
               | Ok (ax, x) => Some (ax, sshape x, this (nget (s_nd x) [])) | Err _ => None end
               = Some ("y", [], ((-1) # 1)%Q)) by (vm_compute; reflexivity).
    rewrite E in H. injection H as -> -> ->. auto. }
  destruct S as (-> & S & V).
  assert (AX : s_axes x = []).
  { unfold sshape in S. revert E S. clear. intros E S.
    assert (H : match argpercentile a (OpNum (number 100)) None with
               | Ok (ax, x) => s_axes x | Err _ => ["?"] end = []) by (vm_compute; reflexivity).
    rewrite E in H. exact H. }
  assert (V' : forall e, this (at_ x e) = ((-1) # 1)%Q) by (intros e; unfold at_; rewrite AX; exact V).
  exists a, x. split; [split; [repeat constructor; simpl; intuition discriminate|reflexivity]|]. split; [reflexivity|].
  split.
  { intros e I. assert (L : e "y" < 3) by (apply I; now left). unfold at_. cbn [s_axes a map].
    destruct (e "y") as [|[|[|]]]; [reflexivity|reflexivity|reflexivity|lia]. }
  split; [exact E|]. split; [exact S|]. split; [exact V'|].
  intros e (k & v & t & _ & T0 & _ & X & _). specialize (V' e).
  assert (L : (at_ x e < 0)%Qc) by (unfold Qclt; rewrite V'; reflexivity).
  assert (G : (0 <= at_ x e)%Qc).
  { rewrite X. rewrite <- (Qcplus_0_l 0). apply Qcplus_le_compat; auto.
    unfold Qcle, number. cbn [this Q2Qc]. rewrite !Qred_correct. unfold Qle. cbn. lia. }
  exact (Qclt_not_le _ _ L G).
Qed.
Print Assumptions C32_hundred_refuted.

(** An axis of size 1 is broadcast against another size by every ufunc, but not
    here: the levels 25 and 75 of the same line raise. *)
Theorem C32_broadcast_refuted :
  exists a sh, wf a /\ (forall e, inside e (sshape a) -> (0 < sum (line a "y" e))%Qc) /\
    broadcast_shapes [others_of (sshape a) "y"; op_shape levels] = Ok sh /\
    argpercentile a levels (Some ["y"]) = Err IndexError.
Proof.
  exists (mkS (of_list 0%Qc [1; 3] (numbers [1; 2; 1]%Z)) ["x"; "y"]), [("x", 2)].
  split; [split; [repeat constructor; simpl; intuition discriminate|reflexivity]|].
  split; [|split; vm_compute; reflexivity].
  intros e I. assert (L : e "x" < 1) by (apply I; now left). unfold line, at_. cbn [s_axes map].
  unfold size_of. cbn. destruct (e "x"); [vm_compute; reflexivity|lia].
Qed.
Print Assumptions C32_broadcast_refuted.

(** Lines [1 2 1] and [0 3 1]: half of the first is reached in the middle of its
    second element, half of the second after two thirds of its second element. *)
Example C32_half : show (argpercentile heights (OpNum (number 50)) (Some ["y"])) = Ok ("y", [("x", 2)], [3 # 2; 5 # 3]%Q).
Proof. vm_compute. reflexivity. Qed.

(** a leading zero is skipped at 0 percent *)
Example C32_none : show (argpercentile heights (OpNum (number 0)) (Some ["y"])) = Ok ("y", [("x", 2)], [0 # 1; 1 # 1]%Q).
Proof. vm_compute. reflexivity. Qed.

Example C32_levels : show (argpercentile heights levels (Some ["y"])) = Ok ("y", [("x", 2)], [1 # 1; 2 # 1]%Q).
Proof. vm_compute. reflexivity. Qed.

(** the hypotheses of the theorem hold here *)
Example C32_applies :
  exists x, argpercentile heights levels (Some ["y"]) = Ok ("y", x) /\ wf x /\ same_shape (sshape x) [("x", 2)] /\
    forall e, inside e [("x", 2)] ->
      cumulative_at (line heights "y" e) (at_ x e) (op_at levels e * sum (line heights "y" e) / number 100)%Qc.
Proof.
  apply C32_argpercentile_partial.
  - split; [repeat constructor; simpl; intuition discriminate|reflexivity].
  - split; [repeat constructor; simpl; intuition discriminate|reflexivity].
  - right. now left.
  - reflexivity.
  - intros [H|[]]. discriminate.
  - intros b m k [E|[]] [E'|[E'|[]]]; injection E as <- <-; [injection E' as <-; auto|discriminate].
  - reflexivity.
  - intros b k [E|[]]. injection E as <- <-. lia.
  - intros e I. assert (L : e "x" < 2) by (apply I; now left).
    assert (L' : bclamp (sshape (mkS (of_list 0%Qc [2] (numbers [25; 75]%Z)) ["x"])) e "x" = e "x" ) by reflexivity.
    unfold levels, op_at, bat, at_. cbn [s_axes map]. rewrite L'. unfold line, at_. cbn [s_axes heights map].
    unfold size_of. cbn [sshape]. cbn.
    destruct (e "x") as [|[|]]; [| |lia]; repeat split; try (unfold Qclt, Qcle; vm_compute; congruence); vm_compute; congruence.
Qed.
