(** C33: indexing a function of bins keeps the vertices of the bins. *)
From Coq Require Import String List Arith ZArith Bool Lia.
From Verif Require Import Base BaseFacts Numpy Shapes Scalar Func Spec SpecFunc FuncFacts.
Import ListNotations.
Open Scope nat_scope.
Open Scope list_scope.

(** The outputs are those that Python indexing selects (an integer keeps its axis
    with one element), and every corner of every selected bin is the same corner
    of the original bin.  Axes without bins may be indexed by any integers and
    slices at the same time.  Missing from the full statement: negative integers
    and bounds, steps, and integers out of range along axes of bins; see below. *)
Theorem C33_getitem_partial :
  forall (A B : Type) (f : farr A B) (it : dict item),
  wf (f_inputs f) -> wf (f_outputs f) -> matched f -> NoDup (dkeys it) ->
  (forall ax v, ~ In (ax, ItArr v) it) ->
  (forall ax n i, bins f ax n -> dget it ax = Some i -> from_start n i) ->
  (forall ax n, In (ax, n) (sshape (f_inputs f)) \/ In (ax, n) (sshape (f_outputs f)) -> (forall m, ~ bins f ax m) ->
     item_ok n (dget it ax)) ->
  exists r, f_getitem f it = Ok r /\ wf (f_inputs r) /\ wf (f_outputs r) /\
    (forall ax n, bins f ax n -> exists k l, In (ax, k) (sshape (f_outputs r)) /\ In (ax, l) (sshape (f_inputs r)) /\
       (k <> 0 -> l = S k) /\
       match dget it ax with
       | Some (ItSlice s) => forall j, j < k <-> exists p, slice_selects s n j p
       | Some _ => k = 1
       | None => k = n
       end) /\
    forall e, cell f r e -> exists e', inside e' (sshape (f_outputs f)) /\ at_ (f_outputs r) e = at_ (f_outputs f) e' /\
      (forall ax n, In (ax, n) (sshape (f_outputs f)) -> selects n (dget it ax) e ax (e' ax)) /\
      forall side, sides f side -> inside (corner side e) (sshape (f_inputs r)) /\
        at_ (f_inputs r) (corner side e) = at_ (f_inputs f) (corner side e').
Proof. exact @f_getitem_spec. Qed.
Print Assumptions C33_getitem_partial.

(** The shape of a function counts bins, not vertices. *)
Theorem C33_shape :
  forall (A B : Type) (f : farr A B), wf (f_inputs f) -> wf (f_outputs f) -> matched f ->
  exists sh, f_shape f = Ok sh /\ NoDup (dkeys sh) /\
    forall ax n, In (ax, n) sh <->
      In (ax, n) (sshape (f_outputs f)) \/ (In (ax, n) (sshape (f_inputs f)) /\ forall m, ~ bins f ax m).
Proof. exact @f_shape_spec. Qed.
Print Assumptions C33_shape.

Open Scope string_scope.

(** three bins along x, for two values along y; the vertices do not depend on y *)
Definition counts : sarr Z := mkS (of_list 0%Z [2; 3] [10; 11; 12; 20; 21; 22]%Z) ["y"; "x"].
Definition edges : sarr Z := mkS (of_list 0%Z [4] [0; 1; 2; 3]%Z) ["x"].
Definition hist : farr Z Z := mkF edges counts.

Definition show (r : res (farr Z Z)) :=
  match r with
  | Ok f => Ok (sshape (f_inputs f), ravel (s_nd (f_inputs f)), sshape (f_outputs f), ravel (s_nd (f_outputs f)))
  | Err e => Err e
  end.

Definition from (a b c : option Z) : item := ItSlice (mkSlice a b c).

(** The last bin, counted from the end, is not found. *)
Theorem C33_last_refuted :
  exists f : farr Z Z, wf (f_inputs f) /\ wf (f_outputs f) /\ bins f "x" 3 /\ index_is 3 (-1) 2 /\
    show (f_getitem f [("x", ItInt (-1))]) = Ok ([("x", 0)], [], [("y", 2); ("x", 0)], []).
Proof.
  exists hist. split; [split; [repeat constructor; simpl; intuition discriminate|reflexivity]|].
  split; [split; [repeat constructor; simpl; intuition discriminate|reflexivity]|].
  split; [split; [right; now left|now left]|]. split; [split; [lia|reflexivity]|]. reflexivity.
Qed.
Print Assumptions C33_last_refuted.

(** Another bin counted from the end is found, but its vertices are lost. *)
Theorem C33_negative_refuted :
  exists f : farr Z Z, wf (f_inputs f) /\ wf (f_outputs f) /\ bins f "x" 3 /\
    show (f_getitem f [("x", ItInt (-2))]) = Ok ([("x", 0)], [], [("y", 2); ("x", 1)], [11; 21]%Z).
Proof.
  exists hist. split; [split; [repeat constructor; simpl; intuition discriminate|reflexivity]|].
  split; [split; [repeat constructor; simpl; intuition discriminate|reflexivity]|].
  split; [split; [right; now left|now left]|]. reflexivity.
Qed.
Print Assumptions C33_negative_refuted.

(** Negative bounds of a slice denote different bins and vertices: all vertices
    are lost, or the first one. *)
Theorem C33_bounds_refuted :
  exists f : farr Z Z, wf (f_inputs f) /\ wf (f_outputs f) /\ bins f "x" 3 /\
    show (f_getitem f [("x", from None (Some (-1)%Z) None)]) =
      Ok ([("x", 0)], [], [("y", 2); ("x", 2)], [10; 11; 20; 21]%Z) /\
    show (f_getitem f [("x", from (Some (-2)%Z) None None)]) =
      Ok ([("x", 2)], [2; 3]%Z, [("y", 2); ("x", 2)], [11; 12; 21; 22]%Z).
Proof.
  exists hist. split; [split; [repeat constructor; simpl; intuition discriminate|reflexivity]|].
  split; [split; [repeat constructor; simpl; intuition discriminate|reflexivity]|].
  split; [split; [right; now left|now left]|]. split; reflexivity.
Qed.
Print Assumptions C33_bounds_refuted.

(** With bounds the step is forgotten for the vertices, without bounds it is
    applied to them: the second selected bin, [2, 3], gets the vertices 1 and 2,
    or 2 and nothing. *)
Theorem C33_step_refuted :
  exists f : farr Z Z, wf (f_inputs f) /\ wf (f_outputs f) /\ bins f "x" 3 /\
    show (f_getitem f [("x", from (Some 0%Z) (Some 3%Z) (Some 2%Z))]) =
      Ok ([("x", 4)], [0; 1; 2; 3]%Z, [("y", 2); ("x", 2)], [10; 12; 20; 22]%Z) /\
    show (f_getitem f [("x", from None None (Some 2%Z))]) =
      Ok ([("x", 2)], [0; 2]%Z, [("y", 2); ("x", 2)], [10; 12; 20; 22]%Z).
Proof.
  exists hist. split; [split; [repeat constructor; simpl; intuition discriminate|reflexivity]|].
  split; [split; [repeat constructor; simpl; intuition discriminate|reflexivity]|].
  split; [split; [right; now left|now left]|]. split; reflexivity.
Qed.
Print Assumptions C33_step_refuted.

(** An integer out of range does not raise: the result is empty. *)
Theorem C33_range_refuted :
  exists f : farr Z Z, wf (f_inputs f) /\ wf (f_outputs f) /\ bins f "x" 3 /\ ~ in_range 3 7 /\
    show (f_getitem f [("x", ItInt 7)]) = Ok ([("x", 0)], [], [("y", 2); ("x", 0)], []).
Proof.
  exists hist. split; [split; [repeat constructor; simpl; intuition discriminate|reflexivity]|].
  split; [split; [repeat constructor; simpl; intuition discriminate|reflexivity]|].
  split; [split; [right; now left|now left]|]. split; [unfold in_range; lia|]. reflexivity.
Qed.
Print Assumptions C33_range_refuted.

(** the hypotheses hold for an integer along y and a slice along x *)
Definition ex_item : dict item := [("y", ItInt (-1)); ("x", from (Some 1%Z) (Some 9%Z) None)].

Example C33_example : show (f_getitem hist ex_item) = Ok ([("x", 3)], [1; 2; 3]%Z, [("x", 2)], [21; 22]%Z).
Proof. reflexivity. Qed.

Example C33_example_shape : f_shape hist = Ok [("y", 2); ("x", 3)].
Proof. reflexivity. Qed.

Example C33_integer : show (f_getitem hist [("x", ItInt 1)]) = Ok ([("x", 2)], [1; 2]%Z, [("y", 2); ("x", 1)], [11; 21]%Z).
Proof. reflexivity. Qed.

Example C33_applies : exists r, f_getitem hist ex_item = Ok r /\ wf (f_inputs r) /\ wf (f_outputs r).
Proof.
  destruct (C33_getitem_partial Z Z hist ex_item) as (r & H1 & H2 & H3 & _); [..|exists r; auto].
  - split; [repeat constructor; simpl; intuition discriminate|reflexivity].
  - split; [repeat constructor; simpl; intuition discriminate|reflexivity].
  - intros ax n m [E|[E|[]]] [E'|[]]; injection E as <- <-; [discriminate|injection E' as <-; now right].
  - repeat constructor; simpl; intuition discriminate.
  - intros ax v [E|[E|[]]]; discriminate.
  - intros ax n i [[E|[E|[]]] [E'|[]]] G; injection E as <- <-; [discriminate|]. injection G as <-.
    split; [now left|]. split; cbn; intros k [= <-]; lia.
  - intros ax n [[E|[]]|[E|[E|[]]]] NB; injection E as <- <-.
    + exfalso. apply (NB 3). split; [right; now left|now left].
    + cbn. unfold in_range. lia.
    + exfalso. apply (NB 3). split; [right; now left|now left].
Qed.
