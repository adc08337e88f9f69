(** The vocabulary for [np.nan_to_num]. *)
From Coq Require Import String List Arith ZArith Bool.
From Verif Require Import Base Numpy Shapes Scalar Vector NanToNum Spec SpecVector.
Import ListNotations.
Open Scope nat_scope.
Open Scope list_scope.

(** the elements of something that is not a vector *)
Definition content {A} (l : held A) (e : env) : A :=
  match l with HArr a => at_ a e | HImplicit a => at_ a e | HBare x => x | HNum x => x end.
Definition extent {A} (l : held A) : shape :=
  match l with HArr a => sshape a | HImplicit a => sshape a | HBare _ => [] | HNum _ => [] end.

(** every element of [l'] is the replacement of the one of [l] *)
Definition replaced {A} (f : A -> A) (l l' : held A) : Prop :=
  extent l' = extent l /\ forall e, content l' e = f (content l e).

(** there is an array to write to *)
Definition has_array {A} (l : held A) : Prop := match l with HArr _ => True | _ => False end.
Definition not_implicit {A} (l : held A) : Prop := match l with HImplicit _ => False | _ => True end.

(** all the vectors and uncertain arrays of [v] are explicit *)
Definition all_explicit {A} (k : class) (v : tree (held A)) : Prop :=
  forall p ty ns, kind v p = Some (ty, ns) -> refusal k ty = None.
