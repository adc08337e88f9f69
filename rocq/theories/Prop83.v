(** C83: Newton's method for vectors. *)
From Coq Require Import Ascii String List Arith ZArith Bool Lia QArith Qcanon.
From Verif Require Import Base BaseFacts Numpy Shapes Scalar Elementwise Vector Matrix Jacobian VectorOptimize.
From Verif Require Import Spec SpecVector SpecMatrix SpecTransform SpecJacobian SpecVectorReduce SpecOptimize SpecInverse SpecVectorOptimize.
From Verif Require MatrixFacts MatrixLaws TransformFacts VectorOptimizeFacts VectorOptimizeLaws Prop29 Prop79 Prop80 Prop81.
Import ListNotations.
Open Scope nat_scope.
Open Scope list_scope.

Local Notation qK := MatrixLaws.qK.

(** What is returned is the last position given to the callback, and all components
    of the value there are below the tolerance; for every function, every jacobian,
    every inverse and every number of iterations. *)
Theorem C83_returns : forall (F : Type) (K : arith F) (absolute : F -> F) (less : F -> F -> bool) (np_inv : list (list F) -> list (list F))
  (function : vec F -> res (vec F)) (jacobian : vec F -> res (matrix F)) (q : tree unit) (guess t : vec F) (n : nat) (T : string -> F) (y : vec F),
  space q -> (forall v w, function v = Ok w -> vector_ok w /\ of_kind q w) ->
  step_ok [] q t -> step_reads q t (fun _ => 0) T ->
  snd (vroot_newton K absolute less np_inv function jacobian guess t n) = Ok y ->
  exists before s, fst (vroot_newton K absolute less np_inv function jacobian guess t n) = before ++ [s] /\ y = v_x s /\
    function (match before with [] => guess | _ => y end) = Ok (v_f s) /\
    forall S e V c, joint (map op_shape (leaves (v_f s))) S -> inside e S -> vector_reads (v_f s) e V -> In c (names q) ->
      less (absolute (V c)) (T c) = true.
Proof. intros. now apply VectorOptimizeFacts.newton_returns with (q := q). Qed.
Print Assumptions C83_returns.

(** The whole history.  Every step has its number, a position of the kind of the
    guess and the value there; the first position is the guess; the next position
    solves the linear equation, and the flags are those of the value before; the
    loop ends at the first position below the tolerance or with an error after [n]
    steps.  Missing from the full statement: jacobians of four or more rows that
    are regular but not symmetric. *)
Theorem C83_history_partial : forall (F : Type) (K : arith F) (absolute : F -> F) (less : F -> F -> bool) (np_inv : list (list F) -> list (list F))
  (B : shape) (p q : tree unit) (function : vec F -> res (vec F)) (jacobian : vec F -> res (matrix F))
  (f : env -> (string -> F) -> string -> F) (J : env -> (string -> F) -> string -> string -> F) (T : string -> F) (guess t : vec F) (n : nat),
  is_field K -> NoDup (dkeys B) -> (exists e, inside e B) -> space p -> space q ->
  realises B p q function f -> slopes B p q jacobian J -> length (names p) = length (names q) ->
  member B p guess -> step_ok [] q t -> step_reads q t (fun _ => 0) T ->
  let run := vroot_newton K absolute less np_inv function jacobian guess t n in
  (forall k s, nth_error (fst run) k = Some s -> at_step B p q f k s) /\
  (forall s, hd_error (fst run) = Some s -> (forall e X, vector_reads guess e X <-> vector_reads (v_x s) e X) /\ function guess = Ok (v_f s) /\
     member B q (v_flags s) /\ forall e, inside e B -> vector_reads (v_flags s) e (fun _ => false)) /\
  linked (newton_linked K np_inv B p q f J) (fst run) /\ linked (flags_linked absolute less B q f T) (fst run) /\
  newton_outcome absolute less B q f T n (fst run) (snd run).
Proof. intros F K ab less ni B p q g j f J T gu t n FK N (e0 & I0) Sp Sq Rf RJ L Mg St Rt. exact (VectorOptimizeFacts.newton_history K FK ab less ni B N p q g j f J T Sp Sq Rf RJ L e0 I0 gu t n Mg St Rt). Qed.
Print Assumptions C83_history_partial.

(** An affine function with its matrix for the jacobian: the guess is returned if it
    is below the tolerance, otherwise an exact root, after one step. *)
Theorem C83_affine_partial : forall (F : Type) (K : arith F) (absolute : F -> F) (less : F -> F -> bool) (np_inv : list (list F) -> list (list F))
  (B : shape) (p q : tree unit) (function : vec F -> res (vec F)) (jacobian : vec F -> res (matrix F))
  (A : env -> string -> string -> F) (b : env -> string -> F) (T : string -> F) (guess t : vec F) (n : nat),
  is_field K -> NoDup (dkeys B) ->
  let f := fun e V r => plus K (b e r) (sum_over K (names p) (fun c => times K (A e r c) (V c))) in
  space p -> space q -> realises B p q function f -> slopes B p q jacobian (fun e _ => A e) ->
  length (names p) = length (names q) -> (exists e, inside e B) ->
  (forall e, inside e B -> invertible K np_inv p q (A e)) ->
  member B p guess -> step_ok [] q t -> step_reads q t (fun _ => 0) T ->
  (forall c, In c (names q) -> less (absolute (zero K)) (T c) = true) -> 2 <= n ->
  exists x, snd (vroot_newton K absolute less np_inv function jacobian guess t n) = Ok x /\ member B p x /\
    ((all_below absolute less B q f T guess /\ forall e X, vector_reads guess e X <-> vector_reads x e X) \/
     (~ all_below absolute less B q f T guess /\ forall e X r, inside e B -> vector_reads x e X -> In r (names q) -> f e X r = zero K)).
Proof. intros F K ab less ni B p q g j A b T gu t n FK N. exact (VectorOptimizeFacts.newton_affine K FK ab less ni B N p q g j A b T gu t n). Qed.
Print Assumptions C83_affine_partial.

(** The default jacobian has the difference quotients, so it is the matrix of an
    affine function, whatever the step. *)
Theorem C83_default : forall (F : Type) (K : arith F) (B : shape) (p q : tree unit) (function : vec F -> res (vec F))
  (f : env -> (string -> F) -> string -> F) (dx : vec F) (D : env -> string -> F),
  NoDup (dkeys B) -> space p -> space q -> realises B p q function f -> step_ok B p dx -> (forall e, inside e B -> step_reads p dx e (D e)) ->
  slopes B p q (default_jacobian K function dx) (fun e X r c => quotient K (f e (moved K X c (D e c)) r) (f e X r) (D e c)).
Proof. intros. now apply VectorOptimizeFacts.default_slopes. Qed.
Print Assumptions C83_default.

Theorem C83_default_affine : forall (F : Type) (K : arith F) (B : shape) (p q : tree unit) (function : vec F -> res (vec F))
  (A : env -> string -> string -> F) (b : env -> string -> F) (dx : vec F) (D : env -> string -> F),
  is_field K -> NoDup (dkeys B) -> space p -> space q ->
  realises B p q function (fun e V r => plus K (b e r) (sum_over K (names p) (fun c => times K (A e r c) (V c)))) ->
  step_ok B p dx -> (forall e, inside e B -> step_reads p dx e (D e)) -> (forall e c, inside e B -> In c (names p) -> D e c <> zero K) ->
  slopes B p q (default_jacobian K function dx) (fun e _ => A e).
Proof. intros F K B p q g A b dx D FK N Sp Sq Rf Sd Rd Nz. exact (VectorOptimizeFacts.default_affine K FK B N p q g A b dx D Sp Sq Rf Sd Rd Nz). Qed.
Print Assumptions C83_default_affine.

(** A system of linear equations is solved. *)
Theorem C83_linear_partial : forall (F : Type) (K : arith F) (absolute : F -> F) (less : F -> F -> bool) (np_inv : list (list F) -> list (list F))
  (B : shape) (p q : tree unit) (m : matrix F) (M : env -> string -> string -> F) (b : vec F) (T : string -> F) (guess t : vec F) (n : nat),
  is_field K -> NoDup (dkeys B) ->
  space p -> space q -> between B p q m -> (forall row, In row (leaves m) -> of_kind p row) -> (forall e, inside e B -> matrix_reads m e (M e)) ->
  member B q b -> length (names p) = length (names q) -> (exists e, inside e B) ->
  (forall e, inside e B -> invertible K np_inv p q (M e)) ->
  member B p guess -> step_ok [] q t -> step_reads q t (fun _ => 0) T ->
  (forall c, In c (names q) -> less (absolute (zero K)) (T c) = true) -> 2 <= n ->
  let function := fun v => w <- matvec K m v ;; vsub K w b in
  exists x, snd (vroot_newton K absolute less np_inv function (fun _ => Ok m) guess t n) = Ok x /\ member B p x /\
    ((forall e X, vector_reads guess e X <-> vector_reads x e X) \/
     forall e X V r, inside e B -> vector_reads x e X -> vector_reads b e V -> In r (names q) ->
       sum_over K (names p) (fun c => times K (M e r c) (X c)) = V r).
Proof. intros F K ab less ni B p q m M b T gu t n FK N. exact (VectorOptimizeFacts.newton_linear K FK ab less ni B N p q m M b T gu t n). Qed.
Print Assumptions C83_linear_partial.

Open Scope string_scope.

(** Refuted for four components: the function is an invertible matrix, which is also
    the jacobian, and [np.linalg.inv] returns its inverse; whatever the number of
    iterations, no root is found. *)
Theorem C83_refuted : exists (p q : tree unit) (m : matrix Qc) (M N : string -> string -> Qc) (guess tolerance : vec Qc),
  space p /\ space q /\ between [] p q m /\ (forall row, In row (leaves m) -> of_kind p row) /\
  (forall e, matrix_reads m e M) /\ two_sided qK (names q) (names p) M N /\
  realises [] p q (matvec qK m) (fun _ V r => sum_over qK (names p) (fun c => times qK (M r c) (V c))) /\
  forall np_inv, np_inv (rows_by (names q) (names p) M) = rows_by (names p) (names q) N ->
  forall n, snd (vroot_newton qK Prop29.qabs Prop29.qless np_inv (matvec qK m) (fun _ => Ok m) guess tolerance n) = Err ValueError.
Proof.
  exists VectorOptimizeLaws.p4, VectorOptimizeLaws.q4, Prop80.shear, VectorOptimizeLaws.M4, VectorOptimizeLaws.N4, (Prop80.row4 1 0 0 0), (Leaf (OpNum VectorOptimizeLaws.half)).
  split; [exact VectorOptimizeLaws.space_p4|]. split; [exact VectorOptimizeLaws.space_q4|]. split; [exact (proj1 VectorOptimizeLaws.shear_between)|].
  split; [exact (proj2 VectorOptimizeLaws.shear_between)|]. split; [exact VectorOptimizeLaws.M4_reads|]. split; [exact VectorOptimizeLaws.shear_two_sided|].
  split; [exact VectorOptimizeLaws.f4_realises|]. exact VectorOptimizeLaws.newton_circle.
Qed.
Print Assumptions C83_refuted.

(** ** Examples *)

Local Notation q := Prop81.q.
Local Notation arr := Prop81.arr.
Local Notation show_vec := Prop81.show_vec.
Definition flat_flags (o : operand bool) : list bool := match o with OpArr a => ravel (s_nd a) | OpNum x => [x] end.
Definition show (r : list (vseen Qc) * res (vec Qc)) :=
  (map (fun s => (v_step s, show_vec (v_x s), show_vec (v_f s), map (fun kv => (fst kv, flat_flags (snd kv))) (cartesian_nd (v_flags s)))) (fst r),
   match snd r with Ok v => Ok (show_vec v) | Err e => Err e end).
Definition newton := vroot_newton qK Prop29.qabs Prop29.qless Prop79.gauss.

Definition point (x y : operand Qc) : vec Qc := Node "Cartesian2d" [("x", Leaf x); ("y", Leaf y)].
(** (x, y) to (x x - 4, x + y - 5) *)
Definition curve (v : vec Qc) : res (vec Qc) :=
  match v with
  | Node _ [(_, Leaf x); (_, Leaf y)] =>
      a <- op2 qK Qcmult x x ;; a <- op2 qK Qcminus a (OpNum (q 4)) ;; b <- op2 qK Qcplus x y ;; b <- op2 qK Qcminus b (OpNum (q 5)) ;;
      Ok (Node "Cartesian2d" [("u", Leaf a); ("w", Leaf b)])
  | _ => Err TypeError
  end.
Definition slope (v : vec Qc) : res (matrix Qc) :=
  match v with
  | Node _ [(_, Leaf x); (_, Leaf y)] =>
      a <- op2 qK Qcmult (OpNum (q 2)) x ;;
      Ok (Node "Cartesian2d" [("u", Leaf (point a (OpNum (q 0)))); ("w", Leaf (point (OpNum (q 1)) (OpNum (q 1))))])
  | _ => Err TypeError
  end.

(** two guesses along an axis; the first is a root already *)
Example C83_example_history :
  show (newton curve slope (point (arr "t" [2; 4]%Z) (OpNum (q 3))) (Leaf (OpNum (Q2Qc (1 # 2)))) 5) =
  ([(0%nat, [("x", [2; 4]); ("y", [3; 3])], [("u", [0; 12]); ("w", [0; 2])], [("u", [false; false]); ("w", [false; false])]);
    (1%nat, [("x", [2; 5 # 2]); ("y", [3; 5 # 2])], [("u", [0; 9 # 4]); ("w", [0; 0])], [("u", [true; false]); ("w", [true; false])]);
    (2%nat, [("x", [2; 41 # 20]); ("y", [3; 59 # 20])], [("u", [0; 81 # 400]); ("w", [0; 0])], [("u", [true; false]); ("w", [true; true])])],
   Ok [("x", [2; 41 # 20]); ("y", [3; 59 # 20])])%Q.
Proof. vm_compute. reflexivity. Qed.

(** too few iterations, and a tolerance for every component *)
Example C83_example_error :
  snd (show (newton curve slope (point (arr "t" [2; 4]%Z) (OpNum (q 3))) (Leaf (OpNum (Q2Qc (1 # 2)))) 2)) = Err ValueError /\
  snd (show (newton curve slope (point (arr "t" [2; 4]%Z) (OpNum (q 3))) (Node "Cartesian2d" [("u", Leaf (OpNum (q 3))); ("w", Leaf (OpNum (q 1)))]) 2)) =
    Ok [("x", [2; 5 # 2]); ("y", [3; 5 # 2])]%Q.
Proof. split; vm_compute; reflexivity. Qed.

(** a tolerance with axes *)
Example C83_example_tolerance :
  newton curve slope (point (arr "t" [2; 4]%Z) (OpNum (q 3))) (Leaf (arr "t" [1; 1]%Z)) 2 = ([], Err ValueError).
Proof. vm_compute. reflexivity. Qed.

(** the default jacobian, with a step of 1 *)
Example C83_example_default :
  let line := fun v => match v with
    | Node _ [(_, Leaf x); (_, Leaf y)] =>
        a <- op2 qK Qcplus x y ;; a <- op2 qK Qcminus a (OpNum (q 5)) ;; b <- op2 qK Qcminus x y ;; b <- op2 qK Qcminus b (OpNum (q 1)) ;; Ok (point a b)
    | _ => Err TypeError end in
  snd (show (newton line (default_jacobian qK line (Leaf (OpNum (q 1)))) (point (arr "t" [7; 9]%Z) (OpNum (q 2))) (Leaf (OpNum (Q2Qc (1 # 2)))) 2)) =
  Ok [("x", [3; 3]); ("y", [2; 2])]%Q.
Proof. vm_compute. reflexivity. Qed.

(** the circle, with the elimination of Gauss and Jordan *)
Example C83_example_circle :
  map (fun s => show_vec (v_f s)) (fst (newton (matvec qK Prop80.shear) (fun _ => Ok Prop80.shear) (Prop80.row4 1 0 0 0) (Leaf (OpNum VectorOptimizeLaws.half)) 7)) =
  map (fun ab => [("w", [fst ab]); ("x", [snd ab]); ("y", [0%Q]); ("z", [0%Q])])
    [(1, 0); (1, 1); (0, 1); (-(1), 0); (-(1), -(1)); (0, -(1)); (1, 0)]%Q.
Proof. vm_compute. reflexivity. Qed.

(** the hypotheses of the theorem on linear equations hold for two equations *)
Definition p2 : tree unit := Node "Cartesian2d" [("x", Leaf tt); ("y", Leaf tt)].
Definition m2 : matrix Qc := Node "Cartesian2d" [("x", Leaf (point (OpNum (q 2)) (OpNum (q 1)))); ("y", Leaf (point (OpNum (q 5)) (OpNum (q 3))))].
Example C83_example_linear :
  let b := point (OpNum (q 4)) (OpNum (q 7)) in
  snd (show (newton (fun v => w <- matvec qK m2 v ;; vsub qK w b) (fun _ => Ok m2) (point (OpNum (q 9)) (OpNum (q 9))) (Leaf (OpNum (q 1))) 2)) =
    Ok [("x", [5]); ("y", [-(6)])]%Q /\
  space p2 /\ between [] p2 p2 m2 /\ (forall row, In row (leaves m2) -> of_kind p2 row) /\ member [] p2 b /\
  matrix_reads m2 (fun _ => 0%nat) (fun r c => MatrixFacts.entry qK m2 r c (fun _ => 0%nat)) /\
  invertible qK Prop79.gauss p2 p2 (fun r c => MatrixFacts.entry qK m2 r c (fun _ => 0%nat)).
Proof.
  assert (Pt : forall x y, member [] p2 (point (OpNum x) (OpNum y))).
  { intros x y. split; [|split].
    - change (point (OpNum x) (OpNum y)) with (MatrixLaws.flat "Cartesian2d" ["x"; "y"] [OpNum x; OpNum y]). Prop80.flat_ok; exact Logic.I.
    - intros c o (a & Ha & _). apply MatrixFacts.leaf_In in Ha. destruct Ha as [<- |[<- |[]]]; intros ax n [].
    - apply VectorOptimizeLaws.shadow_kind. reflexivity. }
  assert (Mk : matrix_ok m2).
  { change m2 with (MatrixLaws.flat "Cartesian2d" ["x"; "y"] [point (OpNum (q 2)) (OpNum (q 1)); point (OpNum (q 5)) (OpNum (q 3))]). Prop80.flat_ok; apply Pt. }
  assert (Rows : forall row, In row (leaves m2) -> of_kind p2 row) by (intros row [<- |[<- |[]]]; apply Pt).
  intros b. split; [vm_compute; reflexivity|]. split; [apply (VectorOptimizeLaws.space_flat "Cartesian2d" ["x"; "y"]); [Prop80.names_differ|discriminate]|].
  split; [|split; [exact Rows|split; [apply Pt|split; [now apply MatrixLaws.entry_reads|]]]].
  - split; [exact Mk|]. split; [|split; [apply VectorOptimizeLaws.shadow_kind; reflexivity|split]].
    + intros r c o (a & row & Ha & _ & b' & Hb & _). apply MatrixFacts.leaf_In in Ha, Hb.
      destruct Ha as [<- |[<- |[]]], Hb as [<- |[<- |[]]]; intros ax n [].
    + intros row [<- |[<- |[]]] c; cbn; tauto.
    + intros row Hr. apply TransformFacts.kind_type. now apply Rows.
  - left. split; [cbn; lia|]. intros D. apply (f_equal this) in D. vm_compute in D. discriminate.
Qed.
