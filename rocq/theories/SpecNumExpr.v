(** Specification vocabulary for [na.numexpr.evaluate]. *)
From Coq Require Import String List Arith Bool.
From Verif Require Import Base Numpy Shapes Scalar Spec NumExpr.
Import ListNotations.
Open Scope nat_scope.
Open Scope list_scope.

(** [v] is a variable of the expression *)
Inductive occurs {A} (v : string) : expr A -> Prop :=
| occurs_var : occurs v (EVar v)
| occurs_un f a : occurs v a -> occurs v (EUn f a)
| occurs_bin1 f a b : occurs v a -> occurs v (EBin f a b)
| occurs_bin2 f a b : occurs v b -> occurs v (EBin f a b)
| occurs_tri1 f a b c : occurs v a -> occurs v (ETri f a b c)
| occurs_tri2 f a b c : occurs v b -> occurs v (ETri f a b c)
| occurs_tri3 f a b c : occurs v c -> occurs v (ETri f a b c).

(** the value of an expression *)
Fixpoint meaning {A} (rho : string -> A) (ex : expr A) : A :=
  match ex with
  | EVar v => rho v
  | EConst c => c
  | EUn f a => f (meaning rho a)
  | EBin f a b => f (meaning rho a) (meaning rho b)
  | ETri f a b c => f (meaning rho a) (meaning rho b) (meaning rho c)
  end.

(** a local variable hides a global one *)
Definition scope {A} (local global : dict (operand A)) (v : string) : option (operand A) :=
  match dget local v with Some a => Some a | None => dget global v end.
