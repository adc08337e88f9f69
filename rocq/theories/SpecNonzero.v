(** What the positions of the elements that are true mean. *)
From Coq Require Import String List Arith ZArith Bool Lia Sorted.
From Verif Require Import Base Numpy Shapes Scalar Elementwise Spec.
Import ListNotations.
Open Scope nat_scope.
Open Scope list_scope.

(** [l] lists the positions of the elements that are true, in row-major order *)
Definition found {A} (truth : A -> bool) (a : sarr A) (l : list (list nat)) : Prop :=
  StronglySorted lex_lt l /\
  forall idx, In idx l <-> exists e, inside e (sshape a) /\ truth (at_ a e) = true /\ idx = map e (s_axes a).

(** the elements are 0 or 1, as those of a mask *)
Definition bits (o : operand Z) : Prop :=
  forall e, inside e (op_shape o) -> op_at o e = 0%Z \/ op_at o e = 1%Z.

(** the arrays of positions as indices *)
Definition as_index (d : dict (sarr Z)) : dict item := map (fun kv => (fst kv, ItArr (snd kv))) d.
