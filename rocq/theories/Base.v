(** Basic definitions shared by the whole model: Python-style results
    (exceptions as values), ordered dictionaries with string keys, and list
    helpers.  Nothing in this file models a particular function of the
    library, except where a comment cites one. *)
From Coq Require Import String List Arith ZArith Bool Lia.
Import ListNotations.
Open Scope string_scope.
Open Scope list_scope.

(** Python exceptions that the modelled code can raise (or that numpy raises
    on its behalf), as values. *)
Inductive err : Type :=
| ValueError | TypeError | IndexError | KeyError | AttributeError
| ZeroDivisionError.

Inductive res (A : Type) : Type :=
| Ok (a : A)
| Err (e : err).
Arguments Ok {A} _.
Arguments Err {A} _.

Definition bind {A B} (r : res A) (f : A -> res B) : res B :=
  match r with Ok a => f a | Err e => Err e end.

Notation "x <- e ;; f" := (bind e (fun x => f))
  (at level 61, e at next level, right associativity).

Definition is_ok {A} (r : res A) : bool :=
  match r with Ok _ => true | Err _ => false end.

Fixpoint mapM {A B} (f : A -> res B) (l : list A) : res (list B) :=
  match l with
  | [] => Ok []
  | x :: l' => y <- f x ;; ys <- mapM f l' ;; Ok (y :: ys)
  end.

(** ** Ordered dictionaries ([dict] with [str] keys, insertion order) *)

Definition dict (V : Type) := list (string * V).

Fixpoint dget {V} (d : dict V) (k : string) : option V :=
  match d with
  | [] => None
  | (k', v) :: d' => if String.eqb k k' then Some v else dget d' k
  end.

Definition dmem {V} (d : dict V) (k : string) : bool :=
  match dget d k with Some _ => true | None => false end.

(** [d[k] = v]: an existing key keeps its position, a new key goes last. *)
Fixpoint dset {V} (d : dict V) (k : string) (v : V) : dict V :=
  match d with
  | [] => [(k, v)]
  | (k', v') :: d' =>
      if String.eqb k k' then (k', v) :: d' else (k', v') :: dset d' k v
  end.

(** [del d[k]] / [d.pop(k)] on a key that may be absent. *)
Fixpoint ddel {V} (d : dict V) (k : string) : dict V :=
  match d with
  | [] => []
  | (k', v') :: d' => if String.eqb k k' then d' else (k', v') :: ddel d' k
  end.

Definition dkeys {V} (d : dict V) : list string := map fst d.
Definition dvals {V} (d : dict V) : list V := map snd d.

(** [d1 | d2]: keys of [d1] first, values of [d2] win. *)
Definition dunion {V} (d1 d2 : dict V) : dict V :=
  fold_left (fun d kv => dset d (fst kv) (snd kv)) d2 d1.

(** ** Lists *)

Definition smem (s : string) (l : list string) : bool := existsb (String.eqb s) l.

(** [l.index(s)] *)
Fixpoint sindex (s : string) (l : list string) : option nat :=
  match l with
  | [] => None
  | x :: l' =>
      if String.eqb s x then Some 0
      else match sindex s l' with Some n => Some (S n) | None => None end
  end.

(** position of [s] in [l], [length l] when absent *)
Fixpoint spos (s : string) (l : list string) : nat :=
  match l with
  | [] => 0
  | x :: l' => if String.eqb s x then 0 else S (spos s l')
  end.

Fixpoint npos (n : nat) (l : list nat) : nat :=
  match l with
  | [] => 0
  | x :: l' => if Nat.eqb n x then 0 else S (npos n l')
  end.

Definition nmem (n : nat) (l : list nat) : bool := existsb (Nat.eqb n) l.

(** [l.insert(i, x)] for a nonnegative [i] *)
Fixpoint insert_at {A} (i : nat) (x : A) (l : list A) : list A :=
  match i, l with
  | 0, _ => x :: l
  | S i', y :: l' => y :: insert_at i' x l'
  | S _, [] => [x]
  end.

Fixpoint prod (l : list nat) : nat :=
  match l with [] => 1 | x :: l' => x * prod l' end.

Fixpoint nodupb (l : list string) : bool :=
  match l with [] => true | x :: l' => negb (smem x l') && nodupb l' end.
