(** The vocabulary for one-dimensional convolutions: sums over pairs of positions. *)
From Coq Require Import String List Arith ZArith Bool Lia.
From Verif Require Import Base Numpy Shapes Scalar Matrix Convolve Spec.
Import ListNotations.
Open Scope nat_scope.
Open Scope list_scope.

Section Convolve.
Context {F : Type} (K : arith F).

(** a number, an array without axes or an array along [x] *)
Definition along (x : string) (o : operand F) : Prop := op_wf o /\ (op_shape o = [] \/ exists n, op_shape o = [(x, n)]).
Definition long (o : operand F) : nat := match op_shape o with [] => 1 | (_, n) :: _ => n end.
Definition element (o : operand F) (i : nat) : F := op_at o (fun _ => i).

(** [f 0 + ... + f (n - 1)] *)
Fixpoint sum_below (n : nat) (f : nat -> F) : F := match n with 0 => zero K | S n => plus K (sum_below n f) (f n) end.

(** the sum of the products of all pairs whose positions add up to [k] *)
Definition pairs (n m : nat) (a v : nat -> F) (k : nat) : F :=
  sum_below n (fun i => sum_below m (fun j => if i + j =? k then times K (a i) (v j) else zero K)).

(** how many of these sums are kept, and the first one that is kept *)
Definition kept (mode : conv_mode) (n m : nat) : nat :=
  match mode with Full => n + m - 1 | Same => Nat.max n m | Valid => Nat.max n m - Nat.min n m + 1 end.
Definition first_kept (mode : conv_mode) (n m : nat) : nat :=
  match mode with Full => 0 | Same => (Nat.min n m - 1) / 2 | Valid => Nat.min n m - 1 end.

(** a polynomial with the coefficients [a] *)
Fixpoint raised (x : F) (k : nat) : F := match k with 0 => one K | S k => times K x (raised x k) end.
Definition polynomial (n : nat) (a : nat -> F) (x : F) : F := sum_below n (fun i => times K (a i) (raised x i)).
End Convolve.
