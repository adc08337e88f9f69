(** What the functions along an axis of a vector give. *)
From Coq Require Import String List Arith ZArith Bool Lia.
From Verif Require Import Base Numpy Shapes Scalar Vector Spec SpecVector.
Import ListNotations.
Open Scope nat_scope.
Open Scope list_scope.

(** the elements met by going along the axis [ax], which has size [n] in the vector; a
    component without the axis is constant along it *)
Definition run {A} (o : operand A) (ax : string) (n : nat) (e : env) : list A :=
  map (fun j => op_at o (set_env e ax j)) (seq 0 n).

(** the sizes of a component that has been repeated along the axis [ax] *)
Definition with_axis (s : shape) (ax : string) (n : nat) (x : string) : option nat :=
  if String.eqb x ax then Some n else dget s x.

(** every scalar of [v] corresponds to an array of [r] as told by [R] *)
Definition each {A B} (v : vec A) (r : vec B) (R : list string -> operand A -> sarr B -> Prop) : Prop :=
  same_kind v r /\
  forall p o, leaf_at v p = Some o -> exists a, leaf_at r p = Some (OpArr a) /\ wf a /\ R p o a.

(** renaming an operand *)
Definition renamed_op {A} (rho : string -> string) (o r : operand A) : Prop :=
  match o with
  | OpNum x => r = OpNum x
  | OpArr a => exists b, r = OpArr b /\ wf b /\ sshape b = map (fun kv => (rho (fst kv), snd kv)) (sshape a) /\
                 forall e, at_ b e = at_ a (fun ax => e (rho ax))
  end.
