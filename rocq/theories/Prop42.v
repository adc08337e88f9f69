(** C42: the vector product. *)
From Coq Require Import Ascii String List Arith ZArith QArith Qcanon Bool Lia.
From Verif Require Import Base Numpy Shapes Scalar Elementwise Vector Matrix Geometry Spec SpecDerived SpecVector SpecMatrix SpecGeometry MatrixLaws GeometryFacts VolumeFacts.
Import ListNotations.
Open Scope nat_scope.
Open Scope list_scope.

(** The components of the vector product, for operands that fit a common shape. *)
Theorem C42_value :
  forall (F : Type) (K : arith F), is_field K ->
  forall (B : shape) (ty : string) (ax ay az bx by_ bz : operand F), NoDup (dkeys B) ->
  Forall op_wf [ax; ay; az; bx; by_; bz] -> Forall (fun o => fits_in (op_shape o) B) [ax; ay; az; bx; by_; bz] ->
  exists cx cy cz, cross K (xyz ty ax ay az) (xyz ty bx by_ bz) = Ok (xyz ty cx cy cz) /\
    Forall op_wf [cx; cy; cz] /\ Forall (fun o => fits_in (op_shape o) B) [cx; cy; cz] /\
    forall e, inside e B -> point3 cx cy cz e = crossed K (point3 ax ay az e) (point3 bx by_ bz e).
Proof. exact @cross_value. Qed.
Print Assumptions C42_value.

(** It is orthogonal to both factors, changes sign when they are exchanged and
    satisfies Lagrange's identity; all the products are those of the library. *)
Theorem C42_laws :
  forall (F : Type) (K : arith F), is_field K ->
  forall (B : shape) (ty : string) (ax ay az bx by_ bz : operand F), NoDup (dkeys B) ->
  Forall op_wf [ax; ay; az; bx; by_; bz] -> Forall (fun o => fits_in (op_shape o) B) [ax; ay; az; bx; by_; bz] ->
  let a := xyz ty ax ay az in let b := xyz ty bx by_ bz in
  exists c d ca cb aa bb ab cc, cross K a b = Ok c /\ cross K b a = Ok d /\
    vec_dot K c a = Ok ca /\ vec_dot K c b = Ok cb /\
    vec_dot K a a = Ok aa /\ vec_dot K b b = Ok bb /\ vec_dot K a b = Ok ab /\ vec_dot K c c = Ok cc /\
    forall e, inside e B ->
      op_at ca e = zero K /\ op_at cb e = zero K /\
      op_at cc e = minus K (times K (op_at aa e) (op_at bb e)) (times K (op_at ab e) (op_at ab e)) /\
      forall n o o', part c n o -> part d n o' -> op_at o' e = neg K (op_at o e).
Proof. exact @cross_laws. Qed.
Print Assumptions C42_laws.

(** Another type is refused, and so is a vector without exactly three components. *)
Theorem C42_refuses :
  forall (F : Type) (K : arith F) (a b : vec F),
  (forall ty cs, a = Node ty cs -> type_name b <> Some ty -> cross K a b = Err TypeError) /\
  (type_name a = type_name b -> is_node a -> NoDup (names a) -> NoDup (names b) ->
   length (leaves a) <> 3 \/ length (leaves b) <> 3 -> cross K a b = Err ValueError).
Proof. exact @cross_refuses. Qed.
Print Assumptions C42_refuses.

Open Scope string_scope.

Definition q (z : Z) : Qc := Q2Qc (inject_Z z).
Definition line (a : string) (l : list Z) : operand Qc := OpArr (mkS (of_list (Q2Qc 0) [length l] (map q l)) [a]).
Definition leafq (o : operand Qc) : list Q := match o with OpNum x => [this x] | OpArr a => map this (ravel (s_nd a)) end.
Definition showv (r : res (vec Qc)) : option (list (string * (shape * list Q))) :=
  match r with Ok v => Some (map (fun kv => (fst kv, (op_shape (snd kv), leafq (snd kv)))) (cartesian_nd v)) | Err _ => None end.

Example ex_unit : showv (cross qK (xyz "v" (OpNum (q 1)) (OpNum (q 0)) (OpNum (q 0))) (xyz "v" (OpNum (q 0)) (OpNum (q 1)) (OpNum (q 0)))) =
  Some [("x", ([], [0%Q])); ("y", ([], [0%Q])); ("z", ([], [1%Q]))].
Proof. vm_compute. reflexivity. Qed.

(** components along different axes *)
Example ex_cross : showv (cross qK (xyz "v" (line "s" [1; 2]%Z) (OpNum (q 3)) (line "t" [5; 7]%Z)) (xyz "v" (OpNum (q 2)) (line "t" [1; 0]%Z) (OpNum (q 4)))) =
  Some [("x", ([("t", 2)], [7; 12]%Q)); ("y", ([("s", 2); ("t", 2)], [6; 10; 2; 6]%Q)); ("z", ([("s", 2); ("t", 2)], [-5; -6; -4; -6]%Q))].
Proof. vm_compute. reflexivity. Qed.

Example ex_hyps : let os := [line "s" [1; 2]%Z; OpNum (q 3); line "t" [5; 7]%Z; OpNum (q 2); line "t" [1; 0]%Z; OpNum (q 4)] in
  let B := [("s", 2); ("t", 2)] in
  NoDup (dkeys B) /\ Forall op_wf os /\ Forall (fun o => fits_in (op_shape o) B) os.
Proof.
  split; [repeat constructor; simpl; intuition discriminate|]. split.
  - repeat constructor; simpl; intuition discriminate.
  - repeat constructor; intros ax n H; simpl in H; try tauto; destruct H as [H|[]]; injection H as <- <-; eexists; (split; [simpl; eauto|]); auto.
Qed.

Example ex_refused :
  cross qK (xyz "v" (OpNum (q 1)) (OpNum (q 1)) (OpNum (q 1))) (xyz "w" (OpNum (q 1)) (OpNum (q 1)) (OpNum (q 1))) = Err TypeError /\
  cross qK (xyz "v" (OpNum (q 1)) (OpNum (q 1)) (OpNum (q 1))) (xy "v" (OpNum (q 1)) (OpNum (q 1))) = Err ValueError.
Proof. split; reflexivity. Qed.
