(** C66: elementwise functions of function arrays. *)
From Coq Require Import String List Arith ZArith Bool Lia.
From Verif Require Import Base Numpy Shapes Scalar Elementwise Derived Func FuncOps Spec SpecNumeric SpecFunc SpecFuncOps FuncUfuncFacts.
Import ListNotations.
Open Scope nat_scope.
Open Scope list_scope.

(** An elementwise function of function arrays, scalar arrays and numbers succeeds
    if and only if the inputs of all functions agree with those of the first one
    and the outputs can be broadcast; the result has the inputs of the first
    function, and its outputs are calculated by name.  Missing from the full
    statement: that the result has the shape of the broadcast arguments; see
    below. *)
Theorem C66_ufunc_partial :
  forall (A B C : Type) (eqb : A -> A -> bool) (g : list B -> C) (args : list (fop A B)) (f0 : farr A B) (rest : list (farr A B)),
  (forall x y, eqb x y = true <-> x = y) ->
  (forall f, In (FFun f) args -> wf (f_inputs f) /\ wf (f_outputs f)) -> (forall o, In (FOp o) args -> op_wf o) ->
  flat_map (fun x => match x with FFun f => [f] | FOp _ => [] end) args = f0 :: rest ->
  let outs := map (fun x => match x with FFun f => OpArr (f_outputs f) | FOp o => o end) args in
  let ok := (forall f, In f rest -> agree (f_inputs f) (f_inputs f0)) /\ ~ conflict (op_shapes outs) in
  (ok -> exists r, f_ufunc eqb g args = Ok r /\ f_inputs r = f_inputs f0 /\ wf (f_outputs r) /\
     (forall ax n, In (ax, n) (sshape (f_outputs r)) <-> In ax (concat (map dkeys (op_shapes outs))) /\ common_size (sizes_of (op_shapes outs) ax) n) /\
     forall e, at_ (f_outputs r) e = g (map (fun o => op_at o e) outs)) /\
  (~ ok -> f_ufunc eqb g args = Err ValueError).
Proof. exact @f_ufunc_spec. Qed.
Print Assumptions C66_ufunc_partial.

Open Scope string_scope.

Definition arr (sh : list nat) (axes : list string) (l : list Z) : sarr Z := mkS (of_list 0%Z sh l) axes.
Definition show (r : res (farr Z Z)) :=
  match r with
  | Ok f => Ok (sshape (f_inputs f), ravel (s_nd (f_inputs f)), sshape (f_outputs f), ravel (s_nd (f_outputs f)))
  | Err e => Err e
  end.
Definition add := f_ufunc (A := Z) Z.eqb (bin Z.add 0%Z).

Definition f1 : farr Z Z := mkF (arr [2] ["x"] [0; 1]%Z) (arr [2] ["x"] [5; 7]%Z).
Definition f2 : farr Z Z := mkF (arr [2] ["x"] [0; 1]%Z) (arr [2; 2] ["y"; "x"] [10; 20; 30; 40]%Z).
Definition f3 : farr Z Z := mkF (arr [2] ["x"] [0; 2]%Z) (arr [2] ["x"] [5; 7]%Z).

Example C66_example : show (add [FFun f1; FFun f2]) = Ok ([("x", 2)], [0; 1]%Z, [("x", 2); ("y", 2)], [15; 35; 27; 47]%Z).
Proof. vm_compute. reflexivity. Qed.

Example C66_other_inputs : add [FFun f1; FFun f3] = Err ValueError.
Proof. vm_compute. reflexivity. Qed.

Example C66_number : show (add [FOp (OpNum 1%Z); FFun f1]) = Ok ([("x", 2)], [0; 1]%Z, [("x", 2)], [6; 8]%Z).
Proof. vm_compute. reflexivity. Qed.

Example C66_applies : exists r, add [FFun f1; FFun f2] = Ok r /\ f_inputs r = f_inputs f1.
Proof.
  destruct (C66_ufunc_partial Z Z Z Z.eqb (bin Z.add 0%Z) [FFun f1; FFun f2] f1 [f2]) as [H _].
  - exact Z.eqb_eq.
  - intros f [E|[E|[]]]; injection E as <-; (split; (split; [repeat constructor; simpl; intuition discriminate|reflexivity])).
  - intros o [E|[E|[]]]; discriminate.
  - reflexivity.
  - destruct H as (r & E & I & _); [|eauto]. split.
    + intros f [<- |[]]. split; [|reflexivity]. intros (ax & n & m & Hn & Hm & N & _). revert Hn Hm. unfold sizes_of. simpl.
      destruct (String.eqb ax "x"); simpl; intuition congruence.
    + intros (ax & n & m & Hn & Hm & N & _). revert Hn Hm. unfold sizes_of. simpl.
      destruct (String.eqb ax "x"), (String.eqb ax "y"); simpl; intuition congruence.
Qed.

(** The result has the inputs of the first function only, even if the second one
    has another axis: the sum depends on the order of the terms. *)
Definition spot : farr Z Z := mkF (arr [] [] [0]%Z) (arr [] [] [5]%Z).
Definition spots : farr Z Z := mkF (arr [3] ["x"] [0; 0; 0]%Z) (arr [] [] [7]%Z).

Theorem C66_commutative_refuted :
  exists f g : farr Z Z, wf (f_inputs f) /\ wf (f_outputs f) /\ wf (f_inputs g) /\ wf (f_outputs g) /\ compatible f /\ compatible g /\
    exists r s, add [FFun f; FFun g] = Ok r /\ add [FFun g; FFun f] = Ok s /\ f_shape r = Ok [] /\ f_shape s = Ok [("x", 3)].
Proof.
  exists spot, spots.
  repeat (split; [split; [repeat constructor; simpl; intuition discriminate|reflexivity]|]).
  split; [intros ax n m []|]. split; [intros ax n m []|].
  eexists. eexists. repeat split; reflexivity.
Qed.
Print Assumptions C66_commutative_refuted.

(** Only the outputs are broadcast with a scalar array: a constant at three points
    plus an array of two elements, whose shapes conflict, gives a function of two
    bins; and plus an array of seven elements, something that is not a function. *)
Definition level : farr Z Z := mkF (arr [3] ["x"] [0; 1; 2]%Z) (arr [] [] [5]%Z).
Definition two : sarr Z := arr [2] ["x"] [1; 2]%Z.
Definition seven : sarr Z := arr [7] ["x"] [1; 2; 3; 4; 5; 6; 7]%Z.

Theorem C66_shape_refuted :
  exists (f : farr Z Z) (a b : sarr Z), wf (f_inputs f) /\ wf (f_outputs f) /\ compatible f /\ wf a /\ wf b /\
    f_shape f = Ok [("x", 3)] /\ conflict [[("x", 3)]; sshape a] /\ conflict [[("x", 3)]; sshape b] /\
    exists r s, add [FFun f; FOp (OpArr a)] = Ok r /\ add [FFun f; FOp (OpArr b)] = Ok s /\
      f_shape r = Ok [("x", 2)] /\ bins r "x" 2 /\ ~ compatible s /\ f_shape s = Err ValueError.
Proof.
  exists level, two, seven.
  repeat (split; [split; [repeat constructor; simpl; intuition discriminate|reflexivity]|]).
  split; [intros ax n m []|].
  repeat (split; [split; [repeat constructor; simpl; intuition discriminate|reflexivity]|]).
  split; [reflexivity|]. split; [exists "x", 3, 2; simpl; intuition discriminate|]. split; [exists "x", 3, 7; simpl; intuition discriminate|].
  eexists. eexists. split; [reflexivity|]. split; [reflexivity|]. split; [reflexivity|]. split; [split; now left|]. split; [|reflexivity].
  intros C. destruct (C "x" 7 3 (or_introl eq_refl) (or_introl eq_refl)) as [H|[H|[H|H]]]; discriminate.
Qed.
Print Assumptions C66_shape_refuted.
