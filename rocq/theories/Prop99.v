(** C99: array_equal, array_equiv and allclose compare uncertain scalars in every world. *)
From Coq Require Import String List Arith ZArith Bool Lia.
From Verif Require Import Base Numpy Shapes Scalar Elementwise Reorder Uncertain UncertainEqual
  Spec SpecVectorReduce SpecUncertain SpecUncertainChoice SpecUncertainEqual UncertainEqualFacts.
Import ListNotations.
Open Scope nat_scope.
Open Scope list_scope.

(** [np.array_equal] says whether two uncertain scalars have the same labels and the same
    elements in every world.  (Partial: the parts must store the same axes in the same
    order, see C38, and both arguments must be uncertain.) *)
Theorem C99_array_equal_partial :
  forall (A : Type) (eqb : A -> A -> bool) (u v : unc A),
  (forall s t, eqb s t = true <-> s = t) -> u_wf u -> u_wf v ->
  (forall w, dkeys (op_shape (u_part u w)) = dkeys (op_shape (u_part v w))) ->
  exists b, u_array_equal eqb (Uncertain u) (Uncertain v) = Ok b /\ (b = true <-> u_same (Uncertain u) (Uncertain v)).
Proof. exact @u_array_equal_spec. Qed.
Print Assumptions C99_array_equal_partial.

(** [np.array_equiv] does the same up to broadcasting. *)
Theorem C99_array_equiv_partial :
  forall (A : Type) (eqb : A -> A -> bool) (u v : unc A) (B : shape),
  (forall s t, eqb s t = true <-> s = t) -> u_wf u -> u_wf v -> NoDup (dkeys B) ->
  (forall w, fits_in (op_shape (u_part u w)) B /\ fits_in (op_shape (u_part v w)) B) ->
  exists b, u_array_equiv eqb (Uncertain u) (Uncertain v) = Ok b /\ (b = true <-> u_agree eq (Uncertain u) (Uncertain v)).
Proof. exact @u_array_equiv_spec. Qed.
Print Assumptions C99_array_equiv_partial.

(** [np.allclose] takes arguments without uncertainty as well, in any order. *)
Theorem C99_allclose :
  forall (A : Type) (close : A -> A -> bool) (x y : uop A) (B : shape),
  uop_wf x -> uop_wf y -> sample_free x -> sample_free y -> NoDup (dkeys B) ->
  (forall w, fits_in (op_shape (part_of x w)) B /\ fits_in (op_shape (part_of y w)) B) ->
  exists b, u_allclose close x y = Ok b /\ (b = true <-> u_agree (fun s t => close s t = true) x y).
Proof. exact @u_allclose_spec. Qed.
Print Assumptions C99_allclose.

(** Parts that do not broadcast are refused. *)
Theorem C99_allclose_refused :
  forall (A : Type) (close : A -> A -> bool) (x y : uop A) w,
  uop_wf x -> uop_wf y ->
  (forall sh, ~ joint [op_shape (part_of x w); op_shape (part_of y w)] sh) ->
  u_allclose close x y = Err ValueError.
Proof. exact @u_refused. Qed.
Print Assumptions C99_allclose_refused.

(** Whether an uncertain scalar equals a number or a scalar array cannot be asked. *)
Theorem C99_mixed_refuted :
  forall (A : Type) (eqb : A -> A -> bool) (u : unc A) (o : operand A),
  u_array_equal eqb (Uncertain u) (Certain o) = Err AttributeError /\
  u_array_equal eqb (Certain o) (Uncertain u) = Err AttributeError /\
  u_array_equiv eqb (Uncertain u) (Certain o) = Err AttributeError.
Proof. exact @u_equal_mixed. Qed.
Print Assumptions C99_mixed_refuted.

Open Scope string_scope.

Definition arr (l : list Z) (s : list nat) (axes : list string) : operand Z := OpArr (mkS (of_list 0%Z s l) axes).
Definition near (x y : Z) : bool := (Z.abs (x - y) <=? 1)%Z.

Definition ex_u : unc Z := mkU (arr [1; 2]%Z [2] ["x"]) (arr [1; 2; 3; 4]%Z [2; 2] ["_distribution"; "x"]).
Definition ex_v : unc Z := mkU (arr [1; 2]%Z [2] ["x"]) (arr [1; 2; 3; 5]%Z [2; 2] ["_distribution"; "x"]).

Lemma ex_wf (l m : list Z) : u_wf (mkU (arr l [2] ["x"]) (arr m [2; 2] ["_distribution"; "x"])).
Proof.
  split; [split; [repeat constructor; cbn; intuition discriminate|reflexivity]|].
  split; [split; [repeat constructor; cbn; intuition discriminate|reflexivity]|]. cbn. intuition discriminate.
Qed.

(** the samples are compared as well as the nominal values *)
Example C99_array_equal_example :
  u_wf ex_u /\ u_wf ex_v /\ (forall w, dkeys (op_shape (u_part ex_u w)) = dkeys (op_shape (u_part ex_v w))) /\
  u_array_equal Z.eqb (Uncertain ex_u) (Uncertain ex_u) = Ok true /\
  u_array_equal Z.eqb (Uncertain ex_u) (Uncertain ex_v) = Ok false /\
  u_array_equal Z.eqb (Uncertain ex_u) (Uncertain (mkU (OpNum 1%Z) (u_distribution ex_u))) = Ok false.
Proof.
  split; [apply ex_wf|]. split; [apply ex_wf|]. split; [intros [w|]; reflexivity|]. repeat split; reflexivity.
Qed.

Example C99_array_equiv_example :
  u_array_equiv Z.eqb (Uncertain (mkU (OpNum 3%Z) (arr [4; 5]%Z [2] ["_distribution"])))
                      (Uncertain (mkU (arr [3; 3]%Z [2] ["x"]) (arr [4; 4; 5; 5]%Z [2; 2] ["_distribution"; "x"]))) = Ok true /\
  u_array_equiv Z.eqb (Uncertain ex_u) (Uncertain ex_v) = Ok false /\
  u_array_equiv Z.eqb (Uncertain (mkU (OpNum 3%Z) (OpNum 1%Z))) (Uncertain (mkU (OpNum 2%Z) (OpNum 1%Z))) = Ok false /\
  u_array_equiv Z.eqb (Certain (arr [1; 2; 3]%Z [3] ["x"])) (Uncertain ex_u) = Err ValueError /\
  u_array_equiv Z.eqb (Certain (arr [1; 2]%Z [2] ["x"])) (Uncertain ex_u) = Err AttributeError.
Proof. repeat split; reflexivity. Qed.

Example C99_allclose_example :
  u_allclose near (Uncertain ex_u) (Uncertain ex_v) = Ok true /\
  u_allclose near (Uncertain ex_u) (Certain (OpNum 2%Z)) = Ok false /\
  u_allclose near (Certain (arr [2; 3]%Z [2] ["x"])) (Uncertain ex_u) = Ok true /\
  u_allclose near (Certain (arr [2; 3; 3]%Z [3] ["x"])) (Uncertain ex_u) = Err ValueError /\
  u_allclose near (Certain (OpNum 2%Z)) (Uncertain (mkU (OpNum 0%Z) (OpNum 2%Z))) = Ok false.
Proof. repeat split; reflexivity. Qed.

(** Two uncertain scalars of one shape that have the same elements in every world, one of
    which stores a constant distribution without the axis, are not equal. *)
Theorem C99_array_equal_stored_refuted :
  exists u v : unc Z, u_wf u /\ u_wf v /\ u_shape u = Ok [("x", 2)] /\ u_shape v = Ok [("x", 2)] /\
    (forall w e, e "x" < 2 -> match w with Some k => k < 2 | None => True end -> u_at (Uncertain u) w e = u_at (Uncertain v) w e) /\
    u_array_equal Z.eqb (Uncertain u) (Uncertain v) = Ok false.
Proof.
  exists (mkU (arr [1; 2]%Z [2] ["x"]) (arr [7; 8]%Z [2] ["_distribution"])), (mkU (arr [1; 2]%Z [2] ["x"]) (arr [7; 7; 8; 8]%Z [2; 2] ["_distribution"; "x"])).
  split. { split; [split; [repeat constructor; cbn; intuition discriminate|reflexivity]|].
    split; [split; [repeat constructor; cbn; intuition discriminate|reflexivity]|]. cbn. intuition discriminate. }
  split; [apply ex_wf|]. split; [reflexivity|]. split; [reflexivity|]. split; [|reflexivity].
  intros [k|] e Hx Hk; [|reflexivity]. cbn. unfold bat, at_, bclamp, set_env. cbn.
  destruct k as [|[|]]; [| |lia]; (destruct (e "x") as [|[|]]; [| |lia]; reflexivity).
Qed.
Print Assumptions C99_array_equal_stored_refuted.
