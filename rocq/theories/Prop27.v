(** C27: matrix products, inverse and determinant go by component name. *)
From Coq Require Import Ascii String List Arith ZArith QArith Qcanon Bool Lia.
From Verif Require Import Base Numpy Shapes Scalar Elementwise Vector Matrix Spec SpecVector SpecMatrix MatrixFacts MatrixLaws.
Import ListNotations.
Open Scope nat_scope.
Open Scope list_scope.

(** Matrix @ matrix: the entry at row i and column j is the sum over the names k
    of the products of the entries (i, k) and (k, j), whatever the order in which
    the columns are listed. *)
Theorem C27_matmul :
  forall (F : Type) (K : arith F), is_field K ->
  forall (B : shape) (m1 m2 : matrix F) (C : list string), NoDup (dkeys B) ->
  matrix_ok m1 -> matrix_ok m2 -> matrix_fits B m1 -> matrix_fits B m2 -> has_columns m1 (names m2) -> has_columns m2 C ->
  exists r, matmul K m1 m2 = Ok r /\ matrix_ok r /\ (forall p, kind r p = kind m1 p) /\ names r = names m1 /\
    has_columns r C /\ (forall cs, ordered_columns m2 cs -> ordered_columns r cs) /\
    (forall L (t : tree L), rows_typed m2 t -> rows_typed r t) /\ matrix_fits B r /\
    forall e M1 M2, inside e B -> matrix_reads m1 e M1 -> matrix_reads m2 e M2 ->
      matrix_reads r e (fun i j => sum_over K (names m2) (fun k => times K (M1 i k) (M2 k j))).
Proof. exact @matmul_value. Qed.
Print Assumptions C27_matmul.

Theorem C27_matvec :
  forall (F : Type) (K : arith F), is_field K ->
  forall (B : shape) (m : matrix F) (v : vec F), NoDup (dkeys B) ->
  matrix_ok m -> vector_ok v -> matrix_fits B m -> vector_fits B v -> has_columns m (names v) -> rows_typed m v ->
  exists r, matvec K m v = Ok r /\ vector_ok r /\ (forall p, kind r p = kind m p) /\ names r = names m /\ vector_fits B r /\
    forall e M V, inside e B -> matrix_reads m e M -> vector_reads v e V ->
      vector_reads r e (fun i => sum_over K (names v) (fun k => times K (M i k) (V k))).
Proof. exact @matvec_value. Qed.
Print Assumptions C27_matvec.

Theorem C27_vecmat :
  forall (F : Type) (K : arith F), is_field K ->
  forall (B : shape) (v : vec F) (m : matrix F) (C : list string), NoDup (dkeys B) ->
  vector_ok v -> matrix_ok m -> vector_fits B v -> matrix_fits B m ->
  (forall k, In k (names v) <-> In k (names m)) -> has_columns m C ->
  exists r, vecmat K v m = Ok r /\ vector_ok r /\ (forall c, In c (names r) <-> In c C) /\ vector_fits B r /\
    (forall L (t : tree L), rows_typed m t -> type_name r = type_name t) /\
    forall e V M, inside e B -> vector_reads v e V -> matrix_reads m e M ->
      vector_reads r e (fun j => sum_over K (names v) (fun k => times K (V k) (M k j))).
Proof. exact @vecmat_value. Qed.
Print Assumptions C27_vecmat.

Theorem C27_dot :
  forall (F : Type) (K : arith F), is_field K ->
  forall (B : shape) (v w : vec F), NoDup (dkeys B) ->
  vector_ok v -> vector_ok w -> vector_fits B v -> vector_fits B w -> (forall k, In k (names v) <-> In k (names w)) ->
  exists o, vec_dot K v w = Ok o /\ op_wf o /\ fits_in (op_shape o) B /\
    forall e V W, inside e B -> vector_reads v e V -> vector_reads w e W ->
      op_at o e = sum_over K (names v) (fun k => times K (V k) (W k)).
Proof. exact @dot_value. Qed.
Print Assumptions C27_dot.

(** Other columns than the rows of the second factor, and rows with different
    columns, are refused. *)
Theorem C27_matmul_refuses :
  forall (F : Type) (K : arith F) (m1 m2 : matrix F),
  (forall C, matrix_ok m1 -> matrix_ok m2 -> has_columns m1 C -> ~ (forall k, In k C <-> In k (names m2)) ->
     matmul K m1 m2 = Err TypeError) /\
  (matrix_ok m1 -> (forall C, ~ has_columns m1 C) -> matmul K m1 m2 = Err ValueError).
Proof. exact @matmul_refuses. Qed.
Print Assumptions C27_matmul_refuses.

Theorem C27_matvec_refuses :
  forall (F : Type) (K : arith F) (m : matrix F) (v : vec F),
  (forall C, matrix_ok m -> vector_ok v -> has_columns m C -> ~ (forall k, In k C <-> In k (names v)) ->
     matvec K m v = Err TypeError) /\
  (matrix_ok m -> (forall C, ~ has_columns m C) -> matvec K m v = Err ValueError).
Proof. exact @matvec_refuses. Qed.
Print Assumptions C27_matvec_refuses.

(** The transpose exchanges the names of rows and columns. *)
Theorem C27_transpose :
  forall (F : Type) (K : arith F) (m : matrix F) (C : list string), matrix_ok m -> has_columns m C ->
  exists t, m_transpose K m = Ok t /\ matrix_ok t /\ (forall c, In c (names t) <-> In c C) /\ ordered_columns t (names m) /\
    (forall cs, ordered_columns m cs -> names t = cs) /\
    (forall row, In row (leaves t) -> forall q, kind row q = kind m q) /\
    forall i j o, cell t i j o <-> cell m j i o.
Proof. exact @transpose_cells. Qed.
Print Assumptions C27_transpose.

Theorem C27_transpose_product :
  forall (F : Type) (K : arith F), is_field K ->
  forall (B : shape) (m1 m2 : matrix F) (C : list string), NoDup (dkeys B) ->
  matrix_ok m1 -> matrix_ok m2 -> matrix_fits B m1 -> matrix_fits B m2 -> has_columns m1 (names m2) -> has_columns m2 C ->
  exists p pt t1 t2 q, matmul K m1 m2 = Ok p /\ m_transpose K p = Ok pt /\ m_transpose K m1 = Ok t1 /\ m_transpose K m2 = Ok t2 /\
    matmul K t2 t1 = Ok q /\ (forall c, In c (names pt) <-> In c (names q)) /\
    ordered_columns pt (names m1) /\ ordered_columns q (names m1) /\
    forall e M, inside e B -> matrix_reads pt e M -> matrix_reads q e M.
Proof. exact @transpose_product. Qed.
Print Assumptions C27_transpose_product.

(** (m1 @ m2) @ v = m1 @ (m2 @ v) *)
Theorem C27_matvec_associative :
  forall (F : Type) (K : arith F), is_field K ->
  forall (B : shape) (m1 m2 : matrix F) (v : vec F), NoDup (dkeys B) ->
  matrix_ok m1 -> matrix_ok m2 -> vector_ok v -> matrix_fits B m1 -> matrix_fits B m2 -> vector_fits B v ->
  has_columns m1 (names m2) -> rows_typed m1 m2 -> has_columns m2 (names v) -> rows_typed m2 v ->
  exists p q a b, matmul K m1 m2 = Ok p /\ matvec K p v = Ok a /\ matvec K m2 v = Ok q /\ matvec K m1 q = Ok b /\
    (forall p, kind a p = kind b p) /\ names a = names b /\
    forall e V, inside e B -> vector_reads a e V -> vector_reads b e V.
Proof. exact @matvec_assoc. Qed.
Print Assumptions C27_matvec_associative.

Theorem C27_matmul_associative :
  forall (F : Type) (K : arith F), is_field K ->
  forall (B : shape) (m1 m2 m3 : matrix F) (C : list string), NoDup (dkeys B) ->
  matrix_ok m1 -> matrix_ok m2 -> matrix_ok m3 -> matrix_fits B m1 -> matrix_fits B m2 -> matrix_fits B m3 ->
  has_columns m1 (names m2) -> has_columns m2 (names m3) -> has_columns m3 C ->
  exists p q a b, matmul K m1 m2 = Ok p /\ matmul K p m3 = Ok a /\ matmul K m2 m3 = Ok q /\ matmul K m1 q = Ok b /\
    (forall p, kind a p = kind b p) /\ names a = names b /\ has_columns a C /\ has_columns b C /\
    forall e M, inside e B -> matrix_reads a e M -> matrix_reads b e M.
Proof. exact @matmul_assoc. Qed.
Print Assumptions C27_matmul_associative.

(** If u is x v + y w at one index then m @ u is x (m @ v) + y (m @ w) there. *)
Theorem C27_matvec_linear :
  forall (F : Type) (K : arith F), is_field K ->
  forall (B : shape) (m : matrix F) (u v w : vec F), NoDup (dkeys B) ->
  matrix_ok m -> matrix_fits B m ->
  (forall x, In x [u; v; w] -> vector_ok x /\ vector_fits B x /\ has_columns m (names x) /\ rows_typed m x) ->
  exists a b c, matvec K m u = Ok a /\ matvec K m v = Ok b /\ matvec K m w = Ok c /\
    names a = names m /\ names b = names m /\ names c = names m /\
    forall e x y V W, inside e B -> vector_reads v e V -> vector_reads w e W ->
      vector_reads u e (fun k => plus K (times K x (V k)) (times K y (W k))) ->
      forall V' W', vector_reads b e V' -> vector_reads c e W' ->
        vector_reads a e (fun k => plus K (times K x (V' k)) (times K y (W' k))).
Proof. exact @matvec_linear. Qed.
Print Assumptions C27_matvec_linear.

(** The inverse of a matrix of size 1, 2 or 3, when every row lists the columns in
    the same order.  Missing: rows that list the same columns in another order,
    where the claim is false, see below; four or more rows. *)
Theorem C27_inverse_partial :
  forall (F : Type) (K : arith F), is_field K ->
  forall (B : shape) (m : matrix F) (cs : list string), NoDup (dkeys B) ->
  matrix_ok m -> matrix_fits B m -> ordered_columns m cs -> length cs = length (names m) -> length cs <= 3 ->
  exists inv p q, m_inverse K m = Ok inv /\ matmul K inv m = Ok p /\ matmul K m inv = Ok q /\
    matrix_ok inv /\ matrix_fits B inv /\ names inv = cs /\ ordered_columns inv (names m) /\
    (forall row, In row (leaves inv) -> forall x, kind row x = kind m x) /\
    (forall L (t : tree L), rows_typed m t -> type_name inv = type_name t) /\
    forall e M, inside e B -> matrix_reads m e M -> determinant K (names m) cs M <> zero K ->
      matrix_reads p e (delta K) /\ matrix_reads q e (delta K).
Proof. exact @inverse_laws. Qed.
Print Assumptions C27_inverse_partial.

(** The determinant of 2D and 3D matrices, again with the columns in one order. *)
Theorem C27_determinant2_partial :
  forall (F : Type) (K : arith F), is_field K ->
  forall (B : shape) (m : matrix F) (c1 c2 : string), NoDup (dkeys B) ->
  matrix_ok m -> matrix_fits B m -> names m = ["x"; "y"]%string -> ordered_columns m [c1; c2] ->
  exists o, det2 K m = Ok o /\ op_wf o /\ fits_in (op_shape o) B /\
    forall e M, inside e B -> matrix_reads m e M -> op_at o e = determinant K (names m) [c1; c2] M.
Proof. exact @det2_value. Qed.
Print Assumptions C27_determinant2_partial.

Theorem C27_determinant3_partial :
  forall (F : Type) (K : arith F), is_field K ->
  forall (B : shape) (m : matrix F) (c1 c2 c3 : string), NoDup (dkeys B) ->
  matrix_ok m -> matrix_fits B m -> names m = ["x"; "y"; "z"]%string -> ordered_columns m [c1; c2; c3] ->
  exists o, det3 K m = Ok o /\ op_wf o /\ fits_in (op_shape o) B /\
    forall e M, inside e B -> matrix_reads m e M -> op_at o e = determinant K (names m) [c1; c2; c3] M.
Proof. exact @det3_value. Qed.
Print Assumptions C27_determinant3_partial.

Theorem C27_multiplicative2_partial :
  forall (F : Type) (K : arith F), is_field K ->
  forall (B : shape) (m1 m2 : matrix F) (c1 c2 : string), NoDup (dkeys B) ->
  matrix_ok m1 -> matrix_ok m2 -> matrix_fits B m1 -> matrix_fits B m2 ->
  names m1 = ["x"; "y"]%string -> names m2 = ["x"; "y"]%string -> ordered_columns m1 (names m2) -> ordered_columns m2 [c1; c2] ->
  exists p d d1 d2, matmul K m1 m2 = Ok p /\ det2 K p = Ok d /\ det2 K m1 = Ok d1 /\ det2 K m2 = Ok d2 /\
    forall e, inside e B -> op_at d e = times K (op_at d1 e) (op_at d2 e).
Proof. exact @det2_product. Qed.
Print Assumptions C27_multiplicative2_partial.

Theorem C27_multiplicative3_partial :
  forall (F : Type) (K : arith F), is_field K ->
  forall (B : shape) (m1 m2 : matrix F) (c1 c2 c3 : string), NoDup (dkeys B) ->
  matrix_ok m1 -> matrix_ok m2 -> matrix_fits B m1 -> matrix_fits B m2 ->
  names m1 = ["x"; "y"; "z"]%string -> names m2 = ["x"; "y"; "z"]%string ->
  ordered_columns m1 (names m2) -> ordered_columns m2 [c1; c2; c3] ->
  exists p d d1 d2, matmul K m1 m2 = Ok p /\ det3 K p = Ok d /\ det3 K m1 = Ok d1 /\ det3 K m2 = Ok d2 /\
    forall e, inside e B -> op_at d e = times K (op_at d1 e) (op_at d2 e).
Proof. exact @det3_product. Qed.
Print Assumptions C27_multiplicative3_partial.

Open Scope string_scope.

(** ** Examples over the rational numbers *)

Example C27_field : is_field qK.
Proof. exact qK_field. Qed.

Definition num (z : Z) : vec Qc := Leaf (OpNum (Q2Qc (inject_Z z))).
Definition arr (ax : string) (l : list Z) : vec Qc :=
  Leaf (OpArr (mkS (of_list (Q2Qc 0) [length l] (map (fun z => Q2Qc (inject_Z z)) l)) [ax])).
Definition leafq (o : operand Qc) : list Q := match o with OpNum x => [this x] | OpArr a => map this (ravel (s_nd a)) end.
Definition showv (r : res (vec Qc)) : option (list (string * (shape * list Q))) :=
  match r with Ok v => Some (map (fun kv => (fst kv, (op_shape (snd kv), leafq (snd kv)))) (cartesian_nd v)) | Err _ => None end.
Definition showm (r : res (matrix Qc)) : option (list (string * list (string * list Q))) :=
  match r with
  | Ok m => match m_rows m with
            | Ok rows => Some (map (fun kv => (fst kv, map (fun x => (fst x, leafq (snd x))) (snd kv))) rows)
            | Err _ => None
            end
  | Err _ => None
  end.
Definition showo (r : res (operand Qc)) : option (list Q) := match r with Ok o => Some (leafq o) | Err _ => None end.

(** entries along an axis; columns in another order than the rows of the factor *)
Definition ex_m1 : matrix Qc :=
  Node "Nd" [("x", Leaf (Node "Nd" [("b", arr "t" [1; 2]); ("a", num 3)]));
             ("y", Leaf (Node "Nd" [("a", num 0); ("b", arr "t" [5; 7])]))]%Z.
Definition ex_m2 : matrix Qc :=
  Node "Nd" [("a", Leaf (Node "Nd" [("u", num 1); ("v", num 2)]));
             ("b", Leaf (Node "Nd" [("v", num 4); ("u", num 3)]))]%Z.

Example C27_matmul_example :
  showm (matmul qK ex_m1 ex_m2) =
    Some [("x", [("u", [6; 9]%Q); ("v", [10; 14]%Q)]); ("y", [("u", [15; 21]%Q); ("v", [20; 28]%Q)])] /\
  showm (matmul qK ex_m2 ex_m1) = None.
Proof. split; vm_compute; reflexivity. Qed.

(** the zero entry makes a number out of an array: the sum over the axis is kept
    by the other terms here *)
Definition ex_v : vec Qc := Node "Nd" [("a", arr "s" [1; 10; 100]); ("b", num 0)]%Z.

Example C27_matvec_example :
  showv (matvec qK ex_m1 ex_v) = Some [("x", ([("s", 3)], [3; 30; 300]%Q)); ("y", ([], [0]%Q))].
Proof. vm_compute. reflexivity. Qed.

Ltac names_differ := repeat constructor; simpl; intuition discriminate.
Ltac flat_ok := first [apply flat_matrix | apply flat_vector]; [reflexivity|discriminate|names_differ|repeat apply Forall_cons; try apply Forall_nil].

Ltac fits := intros ?ax ?n ?H; vm_compute in H; first [contradiction | destruct H as [H|[]]; injection H as <- <-; eexists; split; [simpl; eauto|now right]].

Example C27_hypotheses :
  matrix_ok ex_m1 /\ matrix_ok ex_m2 /\ vector_ok ex_v /\ has_columns ex_m1 (names ex_m2) /\ has_columns ex_m2 ["u"; "v"] /\
  matrix_fits [("t", 2); ("s", 3)] ex_m1 /\ matrix_fits [("t", 2); ("s", 3)] ex_m2 /\ vector_fits [("t", 2); ("s", 3)] ex_v /\
  has_columns ex_m1 (names ex_v) /\ rows_typed ex_m1 ex_v.
Proof.
  assert (M1 : matrix_ok ex_m1).
  { change ex_m1 with (flat "Nd" ["x"; "y"] [flat "Nd" ["b"; "a"] (leaves (Node "Nd" [("b", arr "t" [1; 2]%Z); ("a", num 3)]));
      flat "Nd" ["a"; "b"] (leaves (Node "Nd" [("a", num 0); ("b", arr "t" [5; 7]%Z)]))]).
    flat_ok; flat_ok; repeat constructor; simpl; tauto. }
  assert (M2 : matrix_ok ex_m2).
  { change ex_m2 with (flat "Nd" ["a"; "b"] [flat "Nd" ["u"; "v"] (leaves (Node "Nd" [("u", num 1); ("v", num 2)]));
      flat "Nd" ["v"; "u"] (leaves (Node "Nd" [("v", num 4); ("u", num 3)]))]).
    flat_ok; flat_ok; repeat constructor; simpl; tauto. }
  assert (V : vector_ok ex_v).
  { change ex_v with (flat "Nd" ["a"; "b"] (leaves ex_v)). flat_ok; repeat constructor; simpl; tauto. }
  split; [exact M1|]. split; [exact M2|]. split; [exact V|].
  assert (H1 : forall B m, matrix_ok m -> (forall row o, In row (leaves m) -> In o (leaves row) -> fits_in (op_shape o) B) -> @matrix_fits Qc B m).
  { intros B m M H r c o (p & row & Hp & _ & q & Hq & _). apply (H row o); eapply leaf_In; eauto. }
  split; [intros row [<- |[<- |[]]] c; simpl; tauto|].
  split; [intros row [<- |[<- |[]]] c; simpl; tauto|].
  split; [|split; [|split; [|split]]].
  - apply H1; [exact M1|]. intros row o [<- |[<- |[]]] [<- |[<- |[]]]; fits.
  - apply H1; [exact M2|]. intros row o [<- |[<- |[]]] [<- |[<- |[]]]; fits.
  - intros c o (q & Hq & _). apply leaf_In in Hq. destruct Hq as [<- |[<- |[]]]; fits.
  - intros row [<- |[<- |[]]] c; simpl; tauto.
  - intros row [<- |[<- |[]]]; reflexivity.
Qed.

(** the inverse, with entries along an axis *)
Definition ex_i : matrix Qc :=
  Node "P" [("x", Leaf (Node "Q" [("b", arr "t" [1; 2]); ("a", num 3)]));
            ("y", Leaf (Node "Q" [("b", num 1); ("a", arr "t" [5; 7])]))]%Z.

Example C27_inverse_example :
  showm (m_inverse qK ex_i) =
    Some [("b", [("x", [5 # 2; 7 # 11]%Q); ("y", [-3 # 2; -3 # 11]%Q)]);
          ("a", [("x", [-1 # 2; -1 # 11]%Q); ("y", [1 # 2; 2 # 11]%Q)])] /\
  showm (inv <- m_inverse qK ex_i ;; matmul qK inv ex_i) =
    Some [("b", [("b", [1; 1]%Q); ("a", [0; 0]%Q)]); ("a", [("b", [0; 0]%Q); ("a", [1; 1]%Q)])] /\
  showm (inv <- m_inverse qK ex_i ;; matmul qK ex_i inv) =
    Some [("x", [("x", [1; 1]%Q); ("y", [0; 0]%Q)]); ("y", [("x", [0; 0]%Q); ("y", [1; 1]%Q)])].
Proof. repeat split; vm_compute; reflexivity. Qed.

Definition ex_3 : matrix Qc :=
  Node "C3" [("x", Leaf (Node "C3" [("x", num 2); ("y", num 0); ("z", num 1)]));
             ("y", Leaf (Node "C3" [("x", num 1); ("y", num 3); ("z", num 2)]));
             ("z", Leaf (Node "C3" [("x", num 0); ("y", num 1); ("z", num 4)]))]%Z.

Example C27_determinant_example :
  showo (det3 qK ex_3) = Some [21]%Q /\
  showo (p <- matmul qK ex_3 ex_3 ;; det3 qK p) = Some [441]%Q /\
  showm (inv <- m_inverse qK ex_3 ;; matmul qK inv ex_3) =
    Some [("x", [("x", [1]%Q); ("y", [0]%Q); ("z", [0]%Q)]); ("y", [("x", [0]%Q); ("y", [1]%Q); ("z", [0]%Q)]);
          ("z", [("x", [0]%Q); ("y", [0]%Q); ("z", [1]%Q)])].
Proof. repeat split; vm_compute; reflexivity. Qed.

(** Finding: the second row lists the same columns in another order.  Rows and
    columns are consistent, the product goes by name, but the inverse takes the
    entries of the second row by position. *)
Definition ex_bad : matrix Qc :=
  Node "Nd" [("x", Leaf (Node "Nd" [("a", num 1); ("b", num 2)]));
             ("y", Leaf (Node "Nd" [("b", num 1); ("a", num 0)]))]%Z.

Lemma ex_bad_ok : matrix_ok ex_bad.
Proof.
  change ex_bad with (flat "Nd" ["x"; "y"] [flat "Nd" ["a"; "b"] (leaves (Node "Nd" [("a", num 1); ("b", num 2)]));
      flat "Nd" ["b"; "a"] (leaves (Node "Nd" [("b", num 1); ("a", num 0)]))]).
  flat_ok; flat_ok; repeat constructor; simpl; tauto.
Qed.

Theorem C27_inverse_refuted :
  exists (m inv p : matrix Qc) (M : string -> string -> Qc),
  matrix_ok m /\ has_columns m ["a"; "b"] /\ length (names m) = 2 /\ matrix_fits [] m /\
  matrix_reads m (fun _ => 0) M /\ determinant qK (names m) ["a"; "b"] M <> zero qK /\
  m_inverse qK m = Ok inv /\ matmul qK inv m = Ok p /\ ~ matrix_reads p (fun _ => 0) (delta qK).
Proof.
  destruct (m_inverse qK ex_bad) as [inv|] eqn:Ei; [|vm_compute in Ei; discriminate].
  destruct (matmul qK inv ex_bad) as [p|] eqn:Ep; [|exfalso; revert Ei Ep; vm_compute; intros Ei; injection Ei as <-; vm_compute; discriminate].
  exists ex_bad, inv, p, (fun r c => entry qK ex_bad r c (fun _ => 0)).
  split; [exact ex_bad_ok|]. split; [intros row [<- |[<- |[]]] c; simpl; tauto|]. split; [reflexivity|].
  split. { intros r c o (pp & row & Hp & _ & q & Hq & _). apply leaf_In in Hp, Hq.
    destruct Hp as [<- |[<- |[]]], Hq as [<- |[<- |[]]]; intros ax n []. }
  split; [apply entry_reads; exact ex_bad_ok|].
  split; [vm_compute; discriminate|]. split; [exact Ei|]. split; [exact Ep|].
  intros H.
  assert (C : exists o, cell p "a" "a" o /\ this (op_at o (fun _ => 0)) = (0 # 1)%Q).
  { revert Ei Ep. vm_compute m_inverse. intros Ei. injection Ei as <-. vm_compute matmul. intros Ep. injection Ep as <-.
    eexists. split; [exists ["a"]; eexists; split; [reflexivity|]; split; [reflexivity|]; exists ["a"]; split; [reflexivity|reflexivity]|].
    vm_compute. reflexivity. }
  destruct C as (o & Co & V). rewrite <- (H "a" "a" o Co) in V. vm_compute in V. discriminate.
Qed.
Print Assumptions C27_inverse_refuted.

(** Finding: the same matrix by name, with the second row listed in another
    order, has another determinant. *)
Definition ex_good : matrix Qc :=
  Node "Nd" [("x", Leaf (Node "Nd" [("a", num 1); ("b", num 2)]));
             ("y", Leaf (Node "Nd" [("a", num 0); ("b", num 1)]))]%Z.

Theorem C27_determinant_refuted :
  exists (m m' : matrix Qc) (M : string -> string -> Qc) (o o' : operand Qc),
  matrix_ok m /\ matrix_ok m' /\ names m = names m' /\ has_columns m ["a"; "b"] /\ has_columns m' ["a"; "b"] /\
  matrix_reads m (fun _ => 0) M /\ matrix_reads m' (fun _ => 0) M /\
  det2 qK m = Ok o /\ det2 qK m' = Ok o' /\ op_at o (fun _ => 0) <> op_at o' (fun _ => 0).
Proof.
  exists ex_good, ex_bad, (fun r c => entry qK ex_bad r c (fun _ => 0)). do 2 eexists.
  assert (G : matrix_ok ex_good).
  { change ex_good with (flat "Nd" ["x"; "y"] [flat "Nd" ["a"; "b"] (leaves (Node "Nd" [("a", num 1); ("b", num 2)]));
      flat "Nd" ["a"; "b"] (leaves (Node "Nd" [("a", num 0); ("b", num 1)]))]).
    flat_ok; flat_ok; repeat constructor; simpl; tauto. }
  split; [exact G|]. split; [exact ex_bad_ok|]. split; [reflexivity|].
  split; [intros row [<- |[<- |[]]] c; simpl; tauto|]. split; [intros row [<- |[<- |[]]] c; simpl; tauto|].
  split; [|split; [apply entry_reads; exact ex_bad_ok|]].
  - intros r c o H. destruct (cell_in ex_good ["a"; "b"] r c o G) as [Hr Hc]; [intros row [<- |[<- |[]]] c'; simpl; tauto|exact H|].
    rewrite <- (entry_cell qK ex_good r c o (fun _ => 0) G H).
    destruct Hr as [<- |[<- |[]]], Hc as [<- |[<- |[]]]; reflexivity.
  - split; [reflexivity|]. split; [reflexivity|]. vm_compute. discriminate.
Qed.
Print Assumptions C27_determinant_refuted.
