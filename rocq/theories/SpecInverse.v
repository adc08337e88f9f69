(** The vocabulary of inverses of any size. *)
From Coq Require Import String List Arith ZArith Bool Lia.
From Verif Require Import Base Numpy Shapes Scalar Vector Matrix Spec SpecVector SpecMatrix.
Import ListNotations.
Open Scope nat_scope.
Open Scope list_scope.

(** the row [r] and the column [c] have the same position *)
Definition paired (rs cs : list string) (r c : string) : Prop := In (r, c) (combine rs cs).

(** [N] is the inverse of [M]; the rows of the one are the columns of the other *)
Definition two_sided {F} (K : arith F) (rs cs : list string) (M N : string -> string -> F) : Prop :=
  (forall c c', In c cs -> In c' cs -> sum_over K rs (fun k => times K (N c k) (M k c')) = delta K c c') /\
  (forall r r', In r rs -> In r' rs -> sum_over K cs (fun k => times K (M r k) (N k r')) = delta K r r').

(** the entries of a table, by rows *)
Definition rows_by {F} (rs cs : list string) (M : string -> string -> F) : list (list F) :=
  map (fun r => map (M r) cs) rs.

(** equal to its transpose, rows and columns being matched by position *)
Definition symmetric {F} (rs cs : list string) (M : string -> string -> F) : Prop :=
  forall r c r' c', paired rs cs r c -> paired rs cs r' c' -> M r c' = M r' c.
