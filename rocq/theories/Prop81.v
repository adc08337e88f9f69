(** C81: the Jacobian is the matrix of difference quotients, by name. *)
From Coq Require Import Ascii String List Arith ZArith Bool Lia QArith Qcanon.
From Verif Require Import Base BaseFacts Numpy Shapes Scalar Elementwise Vector Matrix Jacobian Spec SpecVector SpecMatrix SpecTransform SpecJacobian.
From Verif Require MatrixLaws JacobianFacts JacobianLaws.
Import ListNotations.
Open Scope nat_scope.
Open Scope list_scope.

Local Notation qK := MatrixLaws.qK.

(** A vector function of a vector: the rows are named by the value, the columns by
    the argument, also when they are nested, and the entry for [r] and [c] is the
    change of the component [r] of the value when the component [c] of the argument
    is moved, divided by the step of [c]. *)
Theorem C81_matrix : forall (F : Type) (K : arith F) (B : shape) (p q : tree unit) (function : vec F -> res (vec F))
  (f : env -> (string -> F) -> string -> F) (x dx : vec F),
  NoDup (dkeys B) -> space p -> space q -> realises B p q function f -> member B p x -> step_ok B p dx ->
  exists m, na_jacobian K function x dx = Ok (Square m) /\ matrix_ok m /\ matrix_fits B m /\ of_kind q m /\
    (forall row, In row (leaves m) -> of_kind p row) /\
    forall e X D, inside e B -> vector_reads x e X -> step_reads p dx e D ->
      matrix_reads m e (fun r c => quotient K (f e (moved K X c (D c)) r) (f e X r) (D c)).
Proof. intros. now apply JacobianFacts.jacobian_vector. Qed.
Print Assumptions C81_matrix.

(** A scalar function of a vector: a vector like the argument. *)
Theorem C81_gradient : forall (F : Type) (K : arith F) (B : shape) (p : tree unit) (function : vec F -> res (vec F))
  (g : env -> (string -> F) -> F) (x dx : vec F),
  NoDup (dkeys B) -> space p -> realises_scalar B p function g -> member B p x -> step_ok B p dx ->
  exists v, na_jacobian K function x dx = Ok (Column v) /\ member B p v /\
    forall e X D, inside e B -> vector_reads x e X -> step_reads p dx e D ->
      vector_reads v e (fun c => quotient K (g e (moved K X c (D c))) (g e X) (D c)).
Proof. intros. now apply JacobianFacts.jacobian_to_scalar. Qed.
Print Assumptions C81_gradient.

(** A scalar function of a scalar.  Missing from the full statement: plain numbers. *)
Theorem C81_scalar_partial : forall (F : Type) (K : arith F) (B : shape) (function : vec F -> res (vec F)) (g : env -> F -> F)
  (a : sarr F) (dx : operand F),
  NoDup (dkeys B) -> realises_plain B function g -> scalar_in B (OpArr a) -> scalar_in B dx ->
  exists r, na_jacobian K function (Leaf (OpArr a)) (Leaf dx) = Ok (Column (Leaf r)) /\ scalar_in B r /\
    forall e, inside e B -> op_at r e = quotient K (g e (plus K (op_at (OpArr a) e) (op_at dx e))) (g e (op_at (OpArr a) e)) (op_at dx e).
Proof. intros. now apply JacobianLaws.jacobian_plain. Qed.
Print Assumptions C81_scalar_partial.

(** A vector function of a scalar: a vector like the value.  Missing from the full
    statement: plain numbers. *)
Theorem C81_curve_partial : forall (F : Type) (K : arith F) (B : shape) (q : tree unit) (function : vec F -> res (vec F))
  (g : env -> F -> string -> F) (a : sarr F) (dx : operand F),
  NoDup (dkeys B) -> space q -> realises_curve B q function g -> scalar_in B (OpArr a) -> scalar_in B dx ->
  exists v, na_jacobian K function (Leaf (OpArr a)) (Leaf dx) = Ok (Column v) /\ member B q v /\
    forall e, inside e B -> vector_reads v e (fun r =>
      quotient K (g e (plus K (op_at (OpArr a) e) (op_at dx e)) r) (g e (op_at (OpArr a) e) r) (op_at dx e)).
Proof. intros. now apply JacobianLaws.jacobian_curve. Qed.
Print Assumptions C81_curve_partial.

(** The Jacobian of an affine function is its matrix, whatever the step. *)
Theorem C81_affine : forall (F : Type) (K : arith F) (B : shape) (p q : tree unit) (function : vec F -> res (vec F)) (x dx : vec F)
  (A : env -> string -> string -> F) (b : env -> string -> F),
  is_field K -> NoDup (dkeys B) -> space p -> space q -> member B p x -> step_ok B p dx ->
  realises B p q function (fun e V r => plus K (b e r) (sum_over K (names p) (fun c => times K (A e r c) (V c)))) ->
  exists m, na_jacobian K function x dx = Ok (Square m) /\ between B p q m /\ (forall row, In row (leaves m) -> of_kind p row) /\
    forall e D, inside e B -> step_reads p dx e D -> (forall c, In c (names p) -> D c <> zero K) -> matrix_reads m e (A e).
Proof. intros. eapply JacobianLaws.jacobian_affine; eassumption. Qed.
Print Assumptions C81_affine.

Theorem C81_affine_gradient : forall (F : Type) (K : arith F) (B : shape) (p : tree unit) (function : vec F -> res (vec F)) (x dx : vec F)
  (A : env -> string -> F) (b : env -> F),
  is_field K -> NoDup (dkeys B) -> space p -> member B p x -> step_ok B p dx ->
  realises_scalar B p function (fun e V => plus K (b e) (sum_over K (names p) (fun c => times K (A e c) (V c)))) ->
  exists v, na_jacobian K function x dx = Ok (Column v) /\ member B p v /\
    forall e D, inside e B -> step_reads p dx e D -> (forall c, In c (names p) -> D c <> zero K) -> vector_reads v e (A e).
Proof. intros. eapply JacobianLaws.gradient_affine; eassumption. Qed.
Print Assumptions C81_affine_gradient.

(** In particular of the product with a matrix. *)
Theorem C81_product : forall (F : Type) (K : arith F) (B : shape) (p q : tree unit) (a : matrix F) (x dx : vec F),
  is_field K -> NoDup (dkeys B) -> space p -> space q -> between B p q a -> member B p x -> step_ok B p dx ->
  exists m, na_jacobian K (matvec K a) x dx = Ok (Square m) /\ between B p q m /\
    forall e D A, inside e B -> step_reads p dx e D -> (forall c, In c (names p) -> D c <> zero K) -> matrix_reads a e A -> matrix_reads m e A.
Proof. intros. now apply JacobianLaws.jacobian_product. Qed.
Print Assumptions C81_product.

(** Steps that are a vector of another type than the point are refused. *)
Theorem C81_step_types : forall (F : Type) (K : arith F) (function : vec F -> res (vec F)) (ty ty' : string) (cs ds : list (string * vec F)),
  ty' <> ty -> na_jacobian K function (Node ty cs) (Node ty' ds) = Err TypeError.
Proof. intros F K f ty ty' cs ds D. unfold na_jacobian. cbn [any_like]. destruct (String.eqb_spec ty' ty) as [E|_]; [contradiction|reflexivity]. Qed.
Print Assumptions C81_step_types.

Open Scope string_scope.

(** Refutation: a plain number, for which the functions are declared, has no
    Jacobian, whatever the function; neither has a function whose value is a plain
    number. *)
Theorem C81_number_refuted : forall (F : Type) (K : arith F) (x dx : F) (function : vec F -> res (vec F)),
  (forall o, function (Leaf (OpNum x)) = Ok (Leaf o) -> na_jacobian K function (Leaf (OpNum x)) (Leaf (OpNum dx)) = Err TypeError) /\
  (forall ty cs, function (Leaf (OpNum x)) = Ok (Node ty cs) -> na_jacobian K function (Leaf (OpNum x)) (Leaf (OpNum dx)) = Err AttributeError) /\
  (forall a y, function (Leaf (OpArr a)) = Ok (Leaf (OpNum y)) -> na_jacobian K function (Leaf (OpArr a)) (Leaf (OpNum dx)) = Err TypeError).
Proof.
  intros. split; [|split].
  - intros o E. unfold na_jacobian. cbn [any_like bind map_tree]. rewrite E. reflexivity.
  - intros ty cs E. unfold na_jacobian. cbn [any_like bind map_tree]. rewrite E. reflexivity.
  - intros a y E. unfold na_jacobian. cbn [any_like bind map_tree]. rewrite E. reflexivity.
Qed.
Print Assumptions C81_number_refuted.

(** ** Examples *)

Definition q (z : Z) : Qc := Q2Qc (inject_Z z).
Definition arr (ax : string) (l : list Z) : operand Qc := OpArr (mkS (mkNd [length l] (fun p => nth (nth 0 p 0%nat) (map q l) (q 0))) [ax]).
Definition flat_op (o : operand Qc) : list Q := match o with OpArr a => map this (ravel (s_nd a)) | OpNum x => [this x] end.
Definition show_vec (v : vec Qc) : list (string * list Q) := map (fun kv => (fst kv, flat_op (snd kv))) (cartesian_nd v).
Definition show (r : res (slope Qc)) : res (list (string * list (string * list Q))) :=
  match r with
  | Ok (Square m) => Ok (map (fun kv => (fst kv, show_vec (snd kv))) (cartesian_nd m))
  | Ok (Column v) => Ok [("", show_vec v)]
  | Err e => Err e
  end.

(** A nested argument: a wavelength w and a position (x, y); the value is
    (w x, 3 x - y). *)
Definition point (w x y : operand Qc) : vec Qc := Node "SpectralPositional" [("wavelength", Leaf w); ("position", Node "Cartesian2d" [("x", Leaf x); ("y", Leaf y)])].
Definition optics (v : vec Qc) : res (vec Qc) :=
  match v with
  | Node _ [(_, Leaf w); (_, Node _ [(_, Leaf x); (_, Leaf y)])] =>
      a <- op2 qK Qcmult w x ;; b <- op2 qK Qcmult (OpNum (q 3)) x ;; b <- op2 qK Qcminus b y ;;
      Ok (Node "Cartesian2d" [("x", Leaf a); ("y", Leaf b)])
  | _ => Err TypeError
  end.

(** steps of 2 along the wavelength and 5 along the position *)
Example C81_example_matrix :
  show (na_jacobian qK optics (point (arr "t" [1; 2]%Z) (OpNum (q 7)) (OpNum (q 4))) (Node "SpectralPositional" [("wavelength", Leaf (OpNum (q 2))); ("position", Leaf (OpNum (q 5)))])) =
  Ok [("x", [("wavelength", [7; 7]); ("position.x", [1; 2]); ("position.y", [0; 0])]);
      ("y", [("wavelength", [0]); ("position.x", [3]); ("position.y", [-(1)])])]%Q.
Proof. vm_compute. reflexivity. Qed.

(** the square of a scalar: the difference quotient 2 x + dx *)
Definition square (v : vec Qc) : res (vec Qc) := vec_ufunc (fun l => match l with [a; b] => (a * b)%Qc | _ => q 0 end) [v; v].
Example C81_example_square :
  show (na_jacobian qK square (Leaf (arr "t" [0; 1; 5]%Z)) (Leaf (OpNum (q 2)))) = Ok [("", [])] /\
  match na_jacobian qK square (Leaf (arr "t" [0; 1; 5]%Z)) (Leaf (OpNum (q 2))) with
  | Ok (Column (Leaf o)) => flat_op o = [2; 4; 12]%Q
  | _ => False
  end /\
  show (na_jacobian qK square (Leaf (OpNum (q 3))) (Leaf (OpNum (q 2)))) = Err TypeError.
Proof. split; [|split]; vm_compute; reflexivity. Qed.

(** the hypotheses hold for the step above *)
Example C81_example_step :
  step_ok [("t", 2)] (Node "SpectralPositional" [("wavelength", Leaf tt); ("position", Node "Cartesian2d" [("x", Leaf tt); ("y", Leaf tt)])])
    (Node "SpectralPositional" [("wavelength", Leaf (OpNum (q 2))); ("position", Leaf (OpNum (q 5)))]).
Proof.
  split; [|split].
  - constructor; [repeat constructor; cbn; intuition discriminate|]. intros c x [H|[H|[]]]; injection H as <- <-; constructor; exact Logic.I.
  - intros [|c [|c' l]] ty ns ty' ns' H1 H2.
    + injection H1 as <- <-. injection H2 as <- <-. split; [reflexivity|tauto].
    + cbn in H2. destruct (String.eqb c "wavelength"); [discriminate|]. destruct (String.eqb c "position"); discriminate.
    + cbn in H2. destruct (String.eqb c "wavelength"); [discriminate|]. destruct (String.eqb c "position"); discriminate.
  - intros [|c l] H; [now contradict H|]. cbn in *. destruct (String.eqb c "wavelength").
    + exists (OpNum (q 2)). split; [destruct l; reflexivity|]. intros ax n [].
    + destruct (String.eqb c "position"); [|now contradict H]. exists (OpNum (q 5)). split; [destruct l; reflexivity|]. intros ax n [].
Qed.
