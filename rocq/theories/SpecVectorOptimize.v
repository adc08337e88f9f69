(** The vocabulary for Newton's method and gradient descent on vectors: what the
    history of an iteration means, component by component, at each labelled index. *)
From Coq Require Import Ascii String List Arith ZArith Bool Lia.
From Verif Require Import Base Numpy Shapes Scalar Vector Matrix VectorOptimize Spec SpecVector SpecMatrix SpecTransform SpecJacobian SpecInverse.
Import ListNotations.
Open Scope nat_scope.
Open Scope list_scope.

(** an argument for vectors of the kind [q]: a vector of that kind, or a scalar,
    which counts for every component *)
Definition setting {F} (B : shape) (q : tree unit) (v : vec F) : Prop :=
  match v with Leaf s => scalar_in B s | Node _ _ => member B q v end.
Definition setting_reads {F} (v : vec F) (e : env) (V : string -> F) : Prop :=
  match v with Leaf s => forall c, V c = op_at s e | Node _ _ => vector_reads v e V end.

Section Newton.
Context {F : Type} (K : arith F) (absolute : F -> F) (less : F -> F -> bool) (np_inv : list (list F) -> list (list F)) (B : shape) (p q : tree unit).

(** The jacobian takes vectors of the kind [p] to matrices from [p] to [q], whose
    cells at every labelled index are those of [J]. *)
Definition slopes (jacobian : vec F -> res (matrix F)) (J : env -> (string -> F) -> string -> string -> F) : Prop :=
  forall v, member B p v -> exists m, jacobian v = Ok m /\ between B p q m /\ (forall row, In row (leaves m) -> of_kind p row) /\
    forall e V, inside e B -> vector_reads v e V -> matrix_reads m e (J e V).

(** A matrix that the code inverts: up to three rows, every regular one; from four
    rows on, every symmetric one for which [np.linalg.inv] returns the inverse (see
    C27 and C80). *)
Definition invertible (M : string -> string -> F) : Prop :=
  (length (names p) <= 3 /\ determinant K (names q) (names p) M <> zero K) \/
  (4 <= length (names p) /\ symmetric (names q) (names p) M /\
   exists N, np_inv (rows_by (names q) (names p) M) = rows_by (names p) (names q) N /\ two_sided K (names q) (names p) M N).

Variable f : env -> (string -> F) -> string -> F.
Variable J : env -> (string -> F) -> string -> string -> F.

(** every component of the value at [x] is smaller than the tolerance, everywhere *)
Definition all_below (T : string -> F) (x : vec F) : Prop :=
  forall e X c, inside e B -> vector_reads x e X -> In c (names q) -> less (absolute (f e X c)) (T c) = true.

(** what the callback is given at the step [k]: a position and the value there *)
Definition at_step (k : nat) (s : vseen F) : Prop :=
  v_step s = k /\ member B p (v_x s) /\ member B q (v_f s) /\
  forall e X, inside e B -> vector_reads (v_x s) e X -> vector_reads (v_f s) e (f e X).

(** the next position solves the linear equation for the step, wherever
    the matrix is inverted *)
Definition newton_linked (s s' : vseen F) : Prop :=
  forall e X X' r, inside e B -> vector_reads (v_x s) e X -> vector_reads (v_x s') e X' ->
    invertible (J e X) -> In r (names q) ->
    sum_over K (names p) (fun c => times K (J e X r c) (minus K (X c) (X' c))) = f e X r.

(** the flags belong to the value before *)
Definition flags_linked (T : string -> F) (s s' : vseen F) : Prop :=
  member B q (v_flags s') /\
  forall e X, inside e B -> vector_reads (v_x s) e X -> vector_reads (v_flags s') e (fun c => less (absolute (f e X c)) (T c)).

(** all steps before the last are not below the tolerance; when the last is, its
    position is the result *)
Definition newton_outcome (T : string -> F) (n : nat) (history : list (vseen F)) (outcome : res (vec F)) : Prop :=
  (exists before s, history = before ++ [s] /\ length history <= n /\ outcome = Ok (v_x s) /\ all_below T (v_x s) /\
     Forall (fun s => ~ all_below T (v_x s)) before) \/
  (outcome = Err ValueError /\ length history = n /\ Forall (fun s => ~ all_below T (v_x s)) history).
End Newton.

Section Descent.
Context {F : Type} (K : arith F) (B : shape) (p : tree unit).

(** the momentum after [k] steps, when the gradients are those of [g] *)
Fixpoint velocity (beta z : F) (g : nat -> F) (k : nat) : F :=
  match k with 0 => z | S k => plus K (times K beta (velocity beta z g k)) (g k) end.

(** what the callback is given: a position and the value there, a scalar *)
Definition at_descent (g : env -> (string -> F) -> F) (k : nat) (s : vseen F) : Prop :=
  v_step s = k /\ member B p (v_x s) /\
  exists o, v_f s = Leaf o /\ scalar_in B o /\ forall e X, inside e B -> vector_reads (v_x s) e X -> op_at o e = g e X.

(** [X] lists the positions at the labelled index [e] *)
Definition positions (history : list (vseen F)) (e : env) (X : nat -> string -> F) : Prop :=
  forall k s, nth_error history k = Some s -> vector_reads (v_x s) e (X k).

(** the rule of the steps, with the gradient [G], the step sizes [A] and the momentum
    constants [Bt] *)
Definition descends (G : env -> (string -> F) -> string -> F) (A Bt : env -> string -> F) (Z : env -> string -> F) (history : list (vseen F)) : Prop :=
  forall e X k c, inside e B -> positions history e X -> S k < length history -> In c (names p) ->
    X (S k) c = minus K (X k c) (times K (A e c) (velocity (Bt e c) (Z e c) (fun j => G e (X j) c) (S k))).

(** the rule of the documentation, optimize.py:205-213, with the momentum of the step
    before *)
Definition documented (G : env -> (string -> F) -> string -> F) (A Bt : env -> string -> F) (Z : env -> string -> F) (history : list (vseen F)) : Prop :=
  forall e X k c, inside e B -> positions history e X -> S k < length history -> In c (names p) ->
    X (S k) c = minus K (X k c) (times K (A e c) (velocity (Bt e c) (Z e c) (fun j => G e (X j) c) k)).
End Descent.

Fixpoint power {F} (K : arith F) (x : F) (n : nat) : F := match n with 0 => one K | S n => times K x (power K x n) end.
