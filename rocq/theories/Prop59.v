(** C59: rotation matrices rotate, compose by adding angles, and are orthogonal. *)
From Coq Require Import Ascii String List Arith ZArith QArith Qcanon Bool Lia.
From Verif Require Import Base Numpy Shapes Scalar Elementwise Vector Matrix Rotation
  Spec SpecVector SpecMatrix SpecRotation MatrixFacts MatrixLaws RotationFacts.
Import ListNotations.
Open Scope nat_scope.
Open Scope list_scope.

(** A rotation matrix turns the plane of its rotation, and keeps the other coordinate. *)
Theorem C59_rotates :
  forall (A F : Type) (K : arith F), is_field K ->
  forall (cosine sine : A -> F) (B : shape), NoDup (dkeys B) ->
  forall (k : about) (a : operand A) (v : vec F), op_wf a -> fits_in (op_shape a) B ->
  vector_ok v -> vector_fits B v -> type_name v = Some (space_type k) -> (forall c, In c (names v) <-> In c (coordinates k)) ->
  exists r w, rotation K cosine sine k a = Ok r /\ matvec K r v = Ok w /\
    vector_ok w /\ vector_fits B w /\ type_name w = Some (space_type k) /\ names w = coordinates k /\
    forall e V, inside e B -> vector_reads v e V -> vector_reads w e (rotated K k (cosine (op_at a e)) (sine (op_at a e)) V).
Proof. exact @rotate_vector. Qed.
Print Assumptions C59_rotates.

(** It keeps lengths. *)
Theorem C59_length :
  forall (A F : Type) (K : arith F), is_field K ->
  forall (add : A -> A -> A) (cosine sine : A -> F) (B : shape), NoDup (dkeys B) -> trigonometric K add cosine sine ->
  forall (k : about) (a : operand A) (v : vec F), op_wf a -> fits_in (op_shape a) B ->
  vector_ok v -> vector_fits B v -> type_name v = Some (space_type k) -> (forall c, In c (names v) <-> In c (coordinates k)) ->
  exists r w, rotation K cosine sine k a = Ok r /\ matvec K r v = Ok w /\
    forall e V W, inside e B -> vector_reads v e V -> vector_reads w e W -> norm2 K (coordinates k) W = norm2 K (coordinates k) V.
Proof. exact @rotate_length. Qed.
Print Assumptions C59_length.

(** The product of two rotations about one axis is the rotation by the sum of the
    angles, which may have different axes. *)
Theorem C59_sum :
  forall (A F : Type) (K : arith F), is_field K ->
  forall (add : A -> A -> A) (cosine sine : A -> F) (B : shape), NoDup (dkeys B) -> trigonometric K add cosine sine ->
  forall (k : about) (a b ab : operand A), op_wf a -> op_wf b -> op_wf ab ->
  fits_in (op_shape a) B -> fits_in (op_shape b) B -> fits_in (op_shape ab) B ->
  (forall e, inside e B -> op_at ab e = add (op_at a e) (op_at b e)) ->
  exists ra rb rab m, rotation K cosine sine k a = Ok ra /\ rotation K cosine sine k b = Ok rb /\ rotation K cosine sine k ab = Ok rab /\
    matmul K ra rb = Ok m /\ matrix_ok m /\ matrix_ok rab /\ (forall p, kind m p = kind rab p) /\
    names m = coordinates k /\ ordered_columns m (coordinates k) /\ ordered_columns rab (coordinates k) /\
    forall e M, inside e B -> matrix_reads m e M <-> matrix_reads rab e M.
Proof. exact @rotate_sum. Qed.
Print Assumptions C59_sum.

(** The transpose is the inverse on both sides, and [inverse] computes it. *)
Theorem C59_orthogonal :
  forall (A F : Type) (K : arith F), is_field K ->
  forall (add : A -> A -> A) (cosine sine : A -> F) (B : shape), NoDup (dkeys B) -> trigonometric K add cosine sine ->
  forall (k : about) (a : operand A), op_wf a -> fits_in (op_shape a) B ->
  exists r t inv p q, rotation K cosine sine k a = Ok r /\ m_transpose K r = Ok t /\
    matmul K t r = Ok p /\ matmul K r t = Ok q /\ m_inverse K r = Ok inv /\
    names t = coordinates k /\ names inv = coordinates k /\ ordered_columns t (coordinates k) /\ ordered_columns inv (coordinates k) /\
    forall e, inside e B -> matrix_reads p e (delta K) /\ matrix_reads q e (delta K) /\
      forall M, matrix_reads t e M -> matrix_reads inv e M.
Proof. exact @rotate_back. Qed.
Print Assumptions C59_orthogonal.

(** The determinant is one. *)
Theorem C59_determinant :
  forall (A F : Type) (K : arith F), is_field K ->
  forall (add : A -> A -> A) (cosine sine : A -> F) (B : shape), NoDup (dkeys B) -> trigonometric K add cosine sine ->
  forall (k : about) (a : operand A), op_wf a -> fits_in (op_shape a) B ->
  exists r d, rotation K cosine sine k a = Ok r /\ (match k with InPlane => det2 K r | _ => det3 K r end) = Ok d /\
    forall e, inside e B -> op_at d e = one K.
Proof. exact @rotate_determinant. Qed.
Print Assumptions C59_determinant.

Open Scope string_scope.

(** ** Examples: the angles are the rational points of the circle *)

Definition angle : Type := {p : Qc * Qc | (fst p * fst p + snd p * snd p = 1)%Qc}.
Definition cos_q (a : angle) : Qc := fst (proj1_sig a).
Definition sin_q (a : angle) : Qc := snd (proj1_sig a).

Lemma add_point (a b : angle) :
  (fst (cos_q a * cos_q b - sin_q a * sin_q b, sin_q a * cos_q b + cos_q a * sin_q b) * fst (cos_q a * cos_q b - sin_q a * sin_q b, sin_q a * cos_q b + cos_q a * sin_q b) +
   snd (cos_q a * cos_q b - sin_q a * sin_q b, sin_q a * cos_q b + cos_q a * sin_q b) * snd (cos_q a * cos_q b - sin_q a * sin_q b, sin_q a * cos_q b + cos_q a * sin_q b) = 1)%Qc.
Proof.
  destruct a as [[c s] Ha], b as [[c' s'] Hb]. unfold cos_q, sin_q. cbn [fst snd proj1_sig] in *.
  transitivity ((c * c + s * s) * (c' * c' + s' * s'))%Qc; [ring|]. rewrite Ha, Hb. ring.
Qed.
Definition add_angle (a b : angle) : angle :=
  exist _ (cos_q a * cos_q b - sin_q a * sin_q b, sin_q a * cos_q b + cos_q a * sin_q b)%Qc (add_point a b).

Example C59_trigonometric : trigonometric qK add_angle cos_q sin_q.
Proof. split; [|split; reflexivity]. intros [[c s] H]. exact H. Qed.

Definition ex_345 : angle. Proof. exists (Q2Qc (3 # 5), Q2Qc (4 # 5)). apply Qc_is_canon. reflexivity. Defined.
Definition ex_quarter : angle. Proof. exists (Q2Qc 0, Q2Qc 1). apply Qc_is_canon. reflexivity. Defined.
Definition ex_half : angle. Proof. exists (Q2Qc (-1 # 1), Q2Qc 0). apply Qc_is_canon. reflexivity. Defined.

Definition ex_angles : operand angle := OpArr (mkS (of_list ex_half [3] [ex_345; ex_quarter; ex_half]) ["t"]).

Definition num (z : Z) : vec Qc := Leaf (OpNum (Q2Qc (inject_Z z))).
Definition arr (ax : string) (l : list Z) : vec Qc :=
  Leaf (OpArr (mkS (of_list (Q2Qc 0) [length l] (map (fun z => Q2Qc (inject_Z z)) l)) [ax])).
Definition leafq (o : operand Qc) : list Q := match o with OpNum x => [this x] | OpArr a => map this (ravel (s_nd a)) end.
Definition showv (r : res (vec Qc)) : option (list (string * (shape * list Q))) :=
  match r with Ok v => Some (map (fun kv => (fst kv, (op_shape (snd kv), leafq (snd kv)))) (cartesian_nd v)) | Err _ => None end.
Definition showo (r : res (operand Qc)) : option (list Q) := match r with Ok o => Some (leafq o) | Err _ => None end.

Definition ex_v : vec Qc := Node "Cartesian3d" [("x", num 5); ("y", arr "s" [10; 15]); ("z", num 20)]%Z.

Example C59_hypotheses : op_wf ex_angles /\ fits_in (op_shape ex_angles) [("t", 3); ("s", 2)] /\
  vector_ok ex_v /\ vector_fits [("t", 3); ("s", 2)] ex_v /\ type_name ex_v = Some (space_type AboutY) /\ names ex_v = coordinates AboutY.
Proof.
  split; [repeat constructor; simpl; tauto|]. split; [intros ax n [H|[]]; injection H as <- <-; exists 3; simpl; auto|].
  split; [|split; [|split; reflexivity]].
  - change ex_v with (flat "Cartesian3d" ["x"; "y"; "z"] (leaves ex_v)). apply flat_vector; [reflexivity|discriminate|repeat constructor; simpl; intuition discriminate|].
    repeat apply Forall_cons; try apply Forall_nil; repeat constructor; simpl; tauto.
  - intros c o (q & Hq & _). apply leaf_In in Hq. destruct Hq as [<- |[<- |[<- |[]]]]; intros ax n H; cbn in H; try contradiction.
    destruct H as [H|[]]; injection H as <- <-; exists 2; simpl; auto.
Qed.

(** about y: z turns to x; the component y keeps its shape *)
Example C59_example :
  showv (r <- rotation qK cos_q sin_q AboutY ex_angles ;; matvec qK r ex_v) =
    Some [("x", ([("t", 3)], [19; 20; -5 # 1]%Q)); ("y", ([("s", 2)], [10; 15]%Q)); ("z", ([("t", 3)], [8; -5 # 1; -20 # 1]%Q))] /\
  showo (r <- rotation qK cos_q sin_q AboutY ex_angles ;; det3 qK r) = Some [1; 1; 1]%Q /\
  showo (r <- rotation qK cos_q sin_q InPlane ex_angles ;; det2 qK r) = Some [1; 1; 1]%Q.
Proof. repeat split; vm_compute; reflexivity. Qed.
