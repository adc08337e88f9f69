(** Model of the dispatch of library functions over the types of the arguments,
    named_arrays/_named_array_functions.py:52-78. *)
From Coq Require Import String List Arith ZArith Bool.
From Verif Require Import Base.
Import ListNotations.
Open Scope nat_scope.
Open Scope list_scope.

(** ** Python's [sorted]

    Only the comparison [<] is used.  For fewer than 64 elements (the arguments of
    a call) CPython takes the longest run at the front, reverses it when it is
    strictly descending, and inserts the other elements by bisection. *)

(** the rest of an ascending (strictly descending) run after the element [x] *)
Fixpoint run_rest {X} (lt : X -> X -> bool) (descending : bool) (x : X) (l : list X) : list X * list X :=
  match l with
  | [] => ([], [])
  | y :: l' =>
      if Bool.eqb (lt y x) descending
      then let (r, s) := run_rest lt descending y l' in (y :: r, s)
      else ([], l)
  end.

(** the front run, already reversed when descending, and the other elements *)
Definition count_run {X} (lt : X -> X -> bool) (l : list X) : list X * list X :=
  match l with
  | [] => ([], [])
  | x :: l' =>
      let descending := match l' with y :: _ => lt y x | [] => false end in
      let (r, s) := run_rest lt descending x l' in
      (if descending then rev (x :: r) else x :: r, s)
  end.

(** bisection between the positions [lo] and [hi]; [fuel] bounds the steps *)
Fixpoint bisect {X} (fuel : nat) (lt : X -> X -> bool) (pivot : X) (l : list X) (lo hi : nat) : nat :=
  match fuel with
  | 0 => lo
  | S fuel =>
      if lo <? hi then
        let p := lo + (hi - lo) / 2 in
        match nth_error l p with
        | Some y => if lt pivot y then bisect fuel lt pivot l lo p else bisect fuel lt pivot l (S p) hi
        | None => lo
        end
      else lo
  end.

Definition binary_insert {X} (lt : X -> X -> bool) (l : list X) (pivot : X) : list X :=
  let k := bisect (length l) lt pivot l 0 (length l) in
  firstn k l ++ pivot :: skipn k l.

Definition py_sorted {X} (lt : X -> X -> bool) (l : list X) : list X :=
  let (run, rest) := count_run lt l in fold_left (binary_insert lt) rest run.

(** ** Dispatch *)

Section Dispatch.
  (** named arrays, their classes and [issubclass] *)
  Context {X T R : Type} (class : X -> T) (same : T -> T -> bool) (subclass : T -> T -> bool).
  (** [array.__named_array_function__(func, *args, **kwargs)]: [None] stands for
      [NotImplemented] *)
  Context (answer : X -> res (option R)).

  (** [_is_subclass], _named_array_functions.py:52-60 *)
  Definition is_subclass (a b : X) : Z :=
    if same (class a) (class b) then 0%Z
    else if subclass (class a) (class b) then 1%Z
    else if subclass (class b) (class a) then (-1)%Z
    else 0%Z.

  (** the comparison of [functools.cmp_to_key] *)
  Definition key_lt (a b : X) : bool := (is_subclass a b <? 0)%Z.

  (** the loop, _named_array_functions.py:70-78: the arrays asked and the outcome *)
  Fixpoint ask (arrays : list X) : list X * res R :=
    match arrays with
    | [] => ([], Err TypeError)
    | a :: arrays' =>
        match answer a with
        | Err x => ([a], Err x)
        | Ok (Some v) => ([a], Ok v)
        | Ok None => let (asked, r) := ask arrays' in (a :: asked, r)
        end
    end.

  (** [_named_array_function], _named_array_functions.py:63-78; arguments that are
      not named arrays are [None] *)
  Definition named_array_function (args : list (option X)) (kwargs : dict (option X)) : list X * res R :=
    let keep := flat_map (fun o : option X => match o with Some x => [x] | None => [] end) in
    let arrays := keep args ++ keep (dvals kwargs) in
    ask (py_sorted key_lt arrays).
End Dispatch.
