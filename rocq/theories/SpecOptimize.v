(** Specification of the root finders: what the history of an iteration means at
    each labelled index. *)
From Coq Require Import String List Arith ZArith Bool Lia.
From Verif Require Import Base Numpy Shapes Scalar Matrix Optimize Spec.
Import ListNotations.
Open Scope nat_scope.
Open Scope list_scope.

Section Spec.
Context {F : Type} (K : arith F) (absolute : F -> F) (less : F -> F -> bool).

(** the only element of an array without axes *)
Definition single {A} (a : sarr A) : A := nget (s_nd a) [].

(** all elements of [f] are smaller than [t] in absolute value *)
Definition below (t : F) (f : sarr F) : Prop :=
  forall e, inside e (sshape f) -> less (absolute (at_ f e)) t = true.

(** [x'] is the position after [x] in Newton's method, where [f] is the value at
    [x]: at every labelled index, with broadcasting, [x - f / jacobian] *)
Definition newton_step (jacobian : sarr F -> res (sarr F)) (x f x' : sarr F) : Prop :=
  exists jac sh, jacobian x = Ok jac /\
    broadcast_shapes [sshape x; sshape f; sshape jac] = Ok sh /\ same_shape sh (sshape x') /\
    forall e, inside e sh -> at_ x' e = minus K (bat x e) (over K (bat f e) (bat jac e)).

(** what can go wrong with the step from [x]: the function or the jacobian of the
    user raise, or the shapes do not fit together *)
Definition newton_step_fails (function jacobian : sarr F -> res (sarr F)) (x f : sarr F) (e : err) : Prop :=
  jacobian x = Err e \/
  (exists jac, jacobian x = Ok jac /\ e = ValueError /\ broadcast_shapes [sshape x; sshape f; sshape jac] = Err ValueError) \/
  (exists x', newton_step jacobian x f x' /\ function x' = Err e).

(** [c] tells which elements of [f] are below [t] *)
Definition flags_of (t : F) (c : sarr bool) (f : sarr F) : Prop :=
  wf c /\ sshape c = sshape f /\ forall e, inside e (sshape f) -> at_ c e = less (absolute (at_ f e)) t.

(** [b] is [a] broadcast to the shape [sh] *)
Definition broadcast_of (a : sarr F) (sh : shape) (b : sarr F) : Prop :=
  wf b /\ sshape b = sh /\ forall e, inside e sh -> at_ b e = bat a e.

(** a function that returns well-formed arrays *)
Definition returns_wf (g : sarr F -> res (sarr F)) : Prop :=
  forall x y, wf x -> g x = Ok y -> wf y.

(** a function that applies [h] to each element *)
Definition applies (g : sarr F -> res (sarr F)) (h : F -> F) : Prop :=
  forall x, wf x -> exists y, g x = Ok y /\ wf y /\ same_shape (sshape y) (sshape x) /\
    forall e, inside e (sshape x) -> at_ y e = h (at_ x e).

(** a function that is defined everywhere and does not change the shape *)
Definition keeps_shape (g : sarr F -> res (sarr F)) : Prop :=
  forall x, wf x -> exists y, g x = Ok y /\ wf y /\ same_shape (sshape y) (sshape x).

(** the element of a list and the next one are related *)
Definition linked {A} (R : A -> A -> Prop) (l : list A) : Prop :=
  forall k s s', nth_error l k = Some s -> nth_error l (S k) = Some s' -> R s s'.

(** ** The secant method *)

(** the position before the one of step [k] of the history [l]: the point [start]
    for the first step *)
Definition before (start : env -> F) (l : list (seen F)) (k : nat) (e : env) : F :=
  match k with
  | 0 => start e
  | S j => match nth_error l j with Some s => at_ (at_x s) e | None => zero K end
  end.

(** the value before the one of step [k] *)
Definition value_before (f0 : sarr F) (l : list (seen F)) (k : nat) (e : env) : F :=
  match k with
  | 0 => bat f0 e
  | S j => match nth_error l j with Some s => bat (at_f s) e | None => zero K end
  end.

(** at step [k] the element at [e] meets one of the two criteria: its value is
    small or its last step was short *)
Definition converges (start : env -> F) (t : F) (min_step : sarr F) (l : list (seen F)) (k : nat) (e : env) : Prop :=
  exists s, nth_error l k = Some s /\
    (less (absolute (bat (at_f s) e)) t = true \/
     less (absolute (minus K (at_ (at_x s) e) (before start l k e))) (absolute (bat min_step e)) = true).

(** by step [k] the element at [e] has met a criterion *)
Definition converged_by (start : env -> F) (t : F) (min_step : sarr F) (l : list (seen F)) (k : nat) (e : env) : Prop :=
  exists j, j <= k /\ converges start t min_step l j e.

(** the step of the secant method at one element *)
Definition secant_formula (damping : option F) (x0 x1 f0 f1 : F) : F :=
  let correction := over K f1 (over K (minus K f1 f0) (minus K x1 x0)) in
  minus K x1 (match damping with Some d => times K d correction | None => correction end).

(** the history of the secant method between the steps [k] and [k + 1]: the
    elements that have met a criterion do not move any more, the others follow the
    formula, and there is one of those; the flags tell which is which *)
Definition secant_link (start : env -> F) (t : F) (min_step : sarr F) (damping : option F) (f0 : sarr F) (sh : shape)
           (l : list (seen F)) (k : nat) (s s' : seen F) : Prop :=
  let by_now := converged_by start t min_step l k in
  (exists e, inside e sh /\ ~ by_now e) /\
  forall e, inside e sh ->
    (at_ (at_flags s') e = true <-> by_now e) /\
    (by_now e -> at_ (at_x s') e = at_ (at_x s) e) /\
    (~ by_now e ->
       is_zero K (minus K (bat (at_f s) e) (value_before f0 l k e)) = false /\
       at_ (at_x s') e =
       secant_formula damping (before start l k e) (at_ (at_x s) e) (value_before f0 l k e) (bat (at_f s) e)).

(** zero times a number is zero unless the number is not finite *)
Definition finite (y : F) : Prop := is_zero K (times K (zero K) y) = true.
Definition finite_values (g : sarr F -> res (sarr F)) : Prop :=
  forall x y, wf x -> g x = Ok y -> forall e, inside e (sshape y) -> finite (at_ y e).

End Spec.
