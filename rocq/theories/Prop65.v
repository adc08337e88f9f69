(** C65: taking elements along an axis of function arrays, and joining function
    arrays, keeps every output with its input. *)
From Coq Require Import String List Arith ZArith Bool Lia.
From Verif Require Import Base Numpy Shapes Scalar Elementwise Func FuncOps Spec SpecNumeric SpecFunc SpecFuncOps FuncPairsFacts.
Import ListNotations.
Open Scope nat_scope.
Open Scope list_scope.

(** The input and the output at a position of the result come from one point of
    the function, the one that the index names; a part that is constant along the
    axis is repeated.  Axes of bins are refused. *)
Theorem C65_take_along_axis :
  forall (A B : Type) (f : farr A B) (indices : operand Z) (x : string) (sh : shape) (n : nat),
  wf (f_inputs f) -> wf (f_outputs f) -> compatible f -> f_shape f = Ok sh -> op_wf indices -> In (x, n) sh ->
  let i := normalize indices in
  (binned f x = true -> f_take_along_axis f indices x = Err ValueError) /\
  (binned f x = false ->
   ~ conflict [without (sshape (f_inputs f)) [x]; without (sshape i) [x]] ->
   ~ conflict [without (sshape (f_outputs f)) [x]; without (sshape i) [x]] ->
   (forall e, inside e (sshape i) -> in_range n (at_ i e)) ->
   exists r, f_take_along_axis f indices x = Ok r /\ wf (f_inputs r) /\ wf (f_outputs r) /\
     (forall ax k, In (ax, k) (sshape (f_inputs r)) <->
        if String.eqb ax x then k = size_of (sshape i) x
        else (In ax (dkeys (sshape (f_inputs f))) \/ In ax (dkeys (sshape i))) /\ common_size (sizes_of [sshape (f_inputs f); sshape i] ax) k) /\
     (forall ax k, In (ax, k) (sshape (f_outputs r)) <->
        if String.eqb ax x then k = size_of (sshape i) x
        else (In ax (dkeys (sshape (f_outputs f))) \/ In ax (dkeys (sshape i))) /\ common_size (sizes_of [sshape (f_outputs f); sshape i] ax) k) /\
     forall e, inside e (sshape (f_inputs r)) -> inside e (sshape (f_outputs r)) ->
       exists p, index_is n (bat i e) p /\
         at_ (f_inputs r) e = bat (f_inputs f) (set_env e x p) /\ at_ (f_outputs r) e = bat (f_outputs f) (set_env e x p)).
Proof. exact @f_take_along_spec. Qed.
Print Assumptions C65_take_along_axis.

(** The points of the joined function along the axis are those of the first
    function, then those of the second, and so on, with inputs and outputs in step
    even where a part is constant along the axis; an axis of bins, or one that a
    function lacks, is refused. *)
Theorem C65_concatenate :
  forall (A B : Type) (fs : list (farr A B)) (x : string), fs <> [] ->
  (forall f, In f fs -> wf (f_inputs f) /\ wf (f_outputs f) /\ compatible f) ->
  ((exists f, In f fs /\ points f x = None) \/ (exists f, In f fs /\ binned f x = true) ->
   f_concatenate fs x = Err ValueError) /\
  ((forall f, In f fs -> points f x <> None) -> (forall f, In f fs -> binned f x = false) ->
   ~ conflict (map (fun f => without (sshape (f_inputs f)) [x]) fs) ->
   ~ conflict (map (fun f => without (sshape (f_outputs f)) [x]) fs) ->
   let size (f : farr A B) := match points f x with Some n => n | None => 0 end in
   exists r, f_concatenate fs x = Ok r /\ wf (f_inputs r) /\ wf (f_outputs r) /\
     size_of (sshape (f_inputs r)) x = list_sum (map size fs) /\ size_of (sshape (f_outputs r)) x = list_sum (map size fs) /\
     (forall ax n, ax <> x -> (In (ax, n) (sshape (f_inputs r)) <->
        (exists f, In f fs /\ In ax (s_axes (f_inputs f))) /\ common_size (sizes_of (map (fun f => sshape (f_inputs f)) fs) ax) n)) /\
     (forall ax n, ax <> x -> (In (ax, n) (sshape (f_outputs r)) <->
        (exists f, In f fs /\ In ax (s_axes (f_outputs f))) /\ common_size (sizes_of (map (fun f => sshape (f_outputs f)) fs) ax) n)) /\
     forall k f e, nth_error fs k = Some f -> e x < size f ->
       let e' := set_env e x (list_sum (firstn k (map size fs)) + e x) in
       at_ (f_inputs r) e' = bat (f_inputs f) e /\ at_ (f_outputs r) e' = bat (f_outputs f) e).
Proof. exact @f_concatenate_spec. Qed.
Print Assumptions C65_concatenate.

Open Scope string_scope.

Definition arr (sh : list nat) (axes : list string) (l : list Z) : sarr Z := mkS (of_list 0%Z sh l) axes.
Definition show (r : res (farr Z Z)) :=
  match r with
  | Ok f => Ok (sshape (f_inputs f), ravel (s_nd (f_inputs f)), sshape (f_outputs f), ravel (s_nd (f_outputs f)))
  | Err e => Err e
  end.

(** samples, and a constant *)
Definition samples : farr Z Z := mkF (arr [3] ["x"] [0; 1; 3]%Z) (arr [2; 3] ["y"; "x"] [5; 7; 6; 50; 70; 60]%Z).
Definition level : farr Z Z := mkF (arr [2] ["x"] [10; 11]%Z) (arr [] [] [9]%Z).
Definition bars : farr Z Z := mkF (arr [3] ["x"] [0; 1; 3]%Z) (arr [2] ["x"] [5; 7]%Z).
Definition order : operand Z := OpArr (arr [3] ["x"] [-1; 0; 1]%Z).

Example C65_take_example : show (f_take_along_axis samples order "x") =
  Ok ([("x", 3)], [3; 0; 1]%Z, [("x", 3); ("y", 2)], [6; 60; 5; 50; 7; 70]%Z).
Proof. vm_compute. reflexivity. Qed.

Example C65_take_level : show (f_take_along_axis level (OpArr (arr [3] ["x"] [1; 0; 1]%Z)) "x") =
  Ok ([("x", 3)], [11; 10; 11]%Z, [("x", 3)], [9; 9; 9]%Z).
Proof. vm_compute. reflexivity. Qed.

Example C65_take_bars : f_take_along_axis bars (OpArr (arr [2] ["x"] [1; 0]%Z)) "x" = Err ValueError.
Proof. vm_compute. reflexivity. Qed.

Example C65_concatenate_example : show (f_concatenate [samples; level] "x") =
  Ok ([("x", 5)], [0; 1; 3; 10; 11]%Z, [("y", 2); ("x", 5)], [5; 7; 6; 9; 9; 50; 70; 60; 9; 9]%Z).
Proof. vm_compute. reflexivity. Qed.

Lemma samples_ok : wf (f_inputs samples) /\ wf (f_outputs samples) /\ compatible samples.
Proof.
  split; [split; [repeat constructor; simpl; intuition discriminate|reflexivity]|].
  split; [split; [repeat constructor; simpl; intuition discriminate|reflexivity]|].
  intros ax n m [E|[E|[]]] [E'|[]]; injection E as <- <-; injection E' as E'; try discriminate E'; subst; auto.
Qed.

Lemma level_ok : wf (f_inputs level) /\ wf (f_outputs level) /\ compatible level.
Proof.
  split; [split; [repeat constructor; simpl; intuition discriminate|reflexivity]|].
  split; [split; [repeat constructor; simpl; intuition discriminate|reflexivity]|].
  intros ax n m [].
Qed.

Example C65_take_applies : exists r, f_take_along_axis samples order "x" = Ok r.
Proof.
  destruct samples_ok as (Wi & Wo & C).
  destruct (C65_take_along_axis Z Z samples order "x" [("y", 2); ("x", 3)] 3 Wi Wo C eq_refl) as [_ H].
  - split; [repeat constructor; simpl; intuition discriminate|reflexivity].
  - right. now left.
  - destruct H as (r & E & _); eauto.
    + intros (ax & n & m & H & _). destruct H.
    + intros (ax & n & m & Hn & Hm & H & _). unfold sizes_of in Hn, Hm. simpl in Hn, Hm. destruct (String.eqb ax "y"); simpl in Hn, Hm; intuition congruence.
    + intros e He. assert (L := He "x" 3 (or_introl eq_refl)). unfold order, normalize, at_. cbn -[of_list in_range].
      destruct (e "x") as [|[|[|k]]]; [split; discriminate || reflexivity ..|lia].
Qed.

Example C65_concatenate_applies : exists r, f_concatenate [samples; level] "x" = Ok r.
Proof.
  destruct (C65_concatenate Z Z [samples; level] "x") as [_ H].
  - discriminate.
  - intros f [<- |[<- |[]]]; [exact samples_ok|exact level_ok].
  - destruct H as (r & E & _); eauto.
    + intros f [<- |[<- |[]]]; discriminate.
    + intros f [<- |[<- |[]]]; reflexivity.
    + intros (ax & n & m & H & _). destruct H.
    + intros (ax & n & m & Hn & Hm & H & _). unfold sizes_of in Hn, Hm. simpl in Hn, Hm. destruct (String.eqb ax "y"); simpl in Hn, Hm; intuition congruence.
Qed.
