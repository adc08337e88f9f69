(** C31: the ranks computed by [rankdata]. *)
From Coq Require Import String List Arith ZArith Bool Lia QArith Qcanon.
From Verif Require Import Base BaseFacts Numpy Shapes Scalar Reorder Elementwise Reduce Along Sorting Rank Spec SpecRank RankFacts RankdataFacts.
Import ListNotations.
Open Scope nat_scope.
Open Scope list_scope.

(** Every number is given its rank among the numbers with the same position
    along the other axes; nothing else matters.  [None] is NaN.  Missing from the
    full statement: lines without elements, other axes without elements, and an
    axis with the name of the combination; see below. *)
Theorem C31_rankdata_partial :
  forall (A : Type) (leb eqb : A -> A -> bool) (dec : forall x y : A, {x = y} + {x <> y})
         (argsort1 : list (option A) -> list nat) (argsort_int : list Z -> list nat)
         (method : string) (a : sarr (option A)) (axis : option (list string)) (v : bool),
  total_order leb -> (forall x y, eqb x y = true <-> x = y) ->
  argsorts (nan_last leb) argsort1 -> argsorts Z.le argsort_int ->
  In method ["average"; "min"; "max"; "dense"]%string -> wf a ->
  let l := match axis with Some l => l | None => s_axes a end in rankable (sshape a) l ->
  exists r, rankdata argsort1 argsort_int eqb a axis method (OpNum v) = Ok r /\ wf r /\
    flat_shape (sshape a) l (sshape r) /\
    forall e x, inside e (sshape a) -> at_ a e = Some x ->
      at_ r (flat_position (sshape a) l e) = rank_of leb dec method x (numbers (map (at_ a) (fibre (sshape a) l e))).
Proof.
  intros A leb eqb dec arg1 arg_int method a axis v TO EQ AS AI M.
  exact (rankdata_spec leb eqb dec TO EQ arg1 arg_int AS AI method a axis v (proj2 (smem_In method methods) M)).
Qed.
Print Assumptions C31_rankdata_partial.

(** With a mask the result is NaN where the mask is false, elsewhere the rank
    among the elements where the mask is true; the others do not matter. *)
Theorem C31_masked_partial :
  forall (A : Type) (leb eqb : A -> A -> bool) (dec : forall x y : A, {x = y} + {x <> y})
         (argsort1 : list (option A) -> list nat) (argsort_int : list Z -> list nat)
         (method : string) (a : sarr (option A)) (w : sarr bool) (axis : option (list string)) (sh : shape),
  total_order leb -> (forall x y, eqb x y = true <-> x = y) ->
  argsorts (nan_last leb) argsort1 -> argsorts Z.le argsort_int ->
  In method ["average"; "min"; "max"; "dense"]%string -> wf a -> wf w ->
  broadcast_shapes [sshape a; sshape w] = Ok sh ->
  let l := match axis with Some l => l | None => dkeys sh end in rankable sh l ->
  exists r, rankdata argsort1 argsort_int eqb a axis method (OpArr w) = Ok r /\ wf r /\
    flat_shape sh l (sshape r) /\
    forall e, inside e sh ->
      (bat w e = false -> at_ r (flat_position sh l e) = None) /\
      (forall x, bat w e = true -> bat a e = Some x ->
         at_ r (flat_position sh l e) = rank_of leb dec method x (numbers (map (bat a) (filter (bat w) (fibre sh l e))))).
Proof.
  intros A leb eqb dec arg1 arg_int method a w axis sh TO EQ AS AI M.
  exact (rankdata_masked leb eqb dec TO EQ arg1 arg_int AS AI method a w axis sh (proj2 (smem_In method methods) M)).
Qed.
Print Assumptions C31_masked_partial.

(** Other methods, and masks that do not fit, raise. *)
Theorem C31_method :
  forall (A : Type) (argsort1 : list (option A) -> list nat) argsort_int eqb a axis method w,
  ~ In method ["average"; "min"; "max"; "dense"]%string -> rankdata argsort1 argsort_int eqb a axis method w = Err ValueError.
Proof. exact @rankdata_method. Qed.
Print Assumptions C31_method.

Theorem C31_mask_conflict :
  forall (A : Type) (argsort1 : list (option A) -> list nat) argsort_int eqb a axis method w,
  wf a -> wf w -> conflict [sshape a; sshape w] ->
  rankdata argsort1 argsort_int eqb a axis method (OpArr w) = Err ValueError.
Proof. exact @rankdata_conflict. Qed.
Print Assumptions C31_mask_conflict.

Open Scope string_scope.

Definition ranked := rankdata (arg_by z_order None) (arg_by Z.leb 0%Z) Z.eqb.

(** An array without elements has no ranks, but the function raises. *)
Theorem C31_empty_refuted :
  argsorts (nan_last Z.leb) (arg_by z_order None) /\ argsorts Z.le (arg_by Z.leb 0%Z) /\
  exists (a : sarr (option Z)) err, wf a /\ sshape a = [("x", 0)] /\
    ranked a (Some ["x"]) "average" (OpNum true) = Err err.
Proof.
  split; [exact z_argsorts|]. split; [exact zint_argsorts|].
  exists (mkS (of_list None [0] []) ["x"]), IndexError.
  split; [split; [repeat constructor; simpl; intuition discriminate|reflexivity]|].
  split; reflexivity.
Qed.
Print Assumptions C31_empty_refuted.

Definition show (r : res (sarr (option Qc))) :=
  match r with Ok a => Ok (sshape a, map (option_map this) (ravel (s_nd a))) | Err e => Err e end.

(** The Python value [False] masks every element, but it is ignored. *)
Theorem C31_where_false_refuted :
  exists (a : sarr (option Z)), wf a /\
    show (ranked a None "min" (OpNum false)) = Ok ([("x", 2)], [Some (2 # 1); Some (1 # 1)]%Q) /\
    show (ranked a None "min" (OpArr (mkS (mkNd [] (fun _ => false)) []))) = Ok ([("x", 2)], [None; None]).
Proof.
  exists (mkS (of_list None [2] [Some 7; Some 3]%Z) ["x"]).
  split; [split; [repeat constructor; simpl; intuition discriminate|reflexivity]|].
  split; vm_compute; reflexivity.
Qed.
Print Assumptions C31_where_false_refuted.

Example C31_ex_order :
  total_order Z.leb /\ (forall x y, Z.eqb x y = true <-> x = y) /\
  argsorts (nan_last Z.leb) (arg_by z_order None) /\ argsorts Z.le (arg_by Z.leb 0%Z).
Proof. exact (conj z_total (conj Z.eqb_eq (conj z_argsorts zint_argsorts))). Qed.

Definition ex_a : sarr (option Z) :=
  mkS (of_list None [2; 4] [Some 5; Some 1; Some 5; Some 9; Some 2; None; Some 1; Some 2]%Z) ["x"; "y"].

Example C31_ex_wf : wf ex_a /\ rankable (sshape ex_a) ["y"] /\ rankable (sshape ex_a) ["y"; "x"].
Proof.
  split; [split; [repeat constructor; simpl; intuition discriminate|reflexivity]|].
  split; (split; [discriminate|]; split; [repeat constructor; simpl; intuition discriminate|];
    split; [intros z; simpl; tauto|]; split; [discriminate|];
    intros ax n; simpl; intros [E|[E|[]]]; injection E as <- <-; intros H; split; try discriminate; tauto).
Qed.

Example C31_ex_average :
  show (ranked ex_a (Some ["y"]) "average" (OpNum true)) =
  Ok ([("y", 4); ("x", 2)],
      [Some (5 # 2); Some (5 # 2); Some 1; Some 4; Some (5 # 2); Some 1; Some 4; Some (5 # 2)]%Q).
Proof. vm_compute. reflexivity. Qed.

Example C31_ex_min :
  show (ranked ex_a (Some ["y"]) "min" (OpNum true)) =
  Ok ([("y", 4); ("x", 2)], [Some 2; Some 2; Some 1; Some 4; Some 2; Some 1; Some 4; Some 2]%Q).
Proof. vm_compute. reflexivity. Qed.

Example C31_ex_max :
  show (ranked ex_a (Some ["y"]) "max" (OpNum true)) =
  Ok ([("y", 4); ("x", 2)], [Some 3; Some 3; Some 1; Some 4; Some 3; Some 1; Some 4; Some 3]%Q).
Proof. vm_compute. reflexivity. Qed.

Example C31_ex_dense_all :
  show (ranked ex_a (Some ["y"; "x"]) "dense" (OpNum true)) =
  Ok ([("y*x", 8)], [Some 3; Some 2; Some 1; Some 5; Some 3; Some 1; Some 4; Some 2]%Q).
Proof. vm_compute. reflexivity. Qed.

Example C31_ex_masked :
  show (ranked ex_a (Some ["y"]) "average" (OpArr (mkS (of_list true [4] [true; false; true; true]) ["y"]))) =
  Ok ([("x", 2); ("y", 4)],
      [Some (3 # 2); None; Some (3 # 2); Some 3; Some (5 # 2); None; Some 1; Some (5 # 2)]%Q).
Proof. vm_compute. reflexivity. Qed.

Example C31_ex_spec :
  option_map this (rank_of Z.leb Z.eq_dec "average" 5%Z [5; 1; 5; 9]%Z) = Some (5 # 2) /\
  option_map this (rank_of Z.leb Z.eq_dec "dense" 9%Z [5; 1; 5; 9]%Z) = Some (3 # 1).
Proof. vm_compute. split; reflexivity. Qed.
