(** Specification of seeds: the component at a path of positions. *)
From Coq Require Import String List Arith ZArith Bool.
From Verif Require Import Base Vector Random.
Import ListNotations.
Open Scope nat_scope.
Open Scope list_scope.

Fixpoint leaf_at {L} (path : list nat) (t : tree L) : option L :=
  match path, t with
  | [], Leaf l => Some l
  | i :: path, Node _ cs => match nth_error cs i with Some (_, t) => leaf_at path t | None => None end
  | _, _ => None
  end.

(** the seed [k] steps after the given one *)
Definition seed_plus (seed : option Z) (k : nat) : option Z := option_map (fun s => s + Z.of_nat k)%Z seed.

Definition total (path : list nat) : nat := fold_right Nat.add 0 path.
