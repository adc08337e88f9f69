(** Specification vocabulary for the functions of Derived.v, continuing Spec.v. *)
From Coq Require Import String List Arith ZArith Bool Lia.
From Verif Require Import Base Numpy Shapes Scalar Spec.
Import ListNotations.
Open Scope nat_scope.
Open Scope list_scope.

(** the array does not vary along the axis: every element is found equal to the
    first one on its line *)
Definition constant {A} (eqb : A -> A -> bool) (a : sarr A) (ax : string) : Prop :=
  forall e, inside e (sshape a) -> eqb (at_ a e) (at_ a (set_env e ax 0)) = true.

(** the comparison is equality *)
Definition exact_eq {A} (eqb : A -> A -> bool) : Prop := forall x y, eqb x y = true <-> x = y.

(** the vertices of the cell that starts at [e]: each of the axes is followed or
    not by one step *)
Fixpoint corners (axes : list string) (e : env) : list env :=
  match axes with
  | [] => [e]
  | ax :: axes' => corners axes' e ++ corners axes' (set_env e ax (S (e ax)))
  end.

(** the shape [sh] with one element less along each of the axes [l] *)
Definition shrunk (sh : shape) (l : list string) : shape :=
  map (fun kv => (fst kv, if smem (fst kv) l then snd kv - 1 else snd kv)) sh.

(** [small] can be broadcast to [big] *)
Definition covered (small big : shape) : Prop :=
  forall ax n, In (ax, n) small -> In ax (dkeys big) /\ (n = 1 \/ In (ax, n) big).

(** the axes of the array that are asked for, each of them once *)
Definition center_axes {A} (a : sarr A) (axis : option (list string)) : list string :=
  first_appearance (filter (fun ax => smem ax (s_axes a)) (match axis with Some l => l | None => s_axes a end)).

Section Arithmetic.
Context {A : Type} (add mul sub : A -> A -> A) (zero one : A).

Definition sum (l : list A) : A := fold_right add zero l.

Fixpoint power (x : A) (n : nat) : A :=
  match n with O => one | S n' => mul x (power x n') end.

(** the multilinear weight of the vertex [c] for a point of the cell [e] at the
    fractions [i] *)
Definition weight (i : dict A) (e c : env) : A :=
  fold_right (fun kv p => mul (if c (fst kv) =? e (fst kv) then sub one (snd kv) else snd kv) p) one i.

(** the image of a natural number *)
Fixpoint of_nat (n : nat) : A :=
  match n with O => zero | S n' => add (of_nat n') one end.

(** the affine function with slope [s ax] along each of the axes *)
Definition affine (c : A) (s : string -> A) (axes : list string) (x : string -> A) : A :=
  add c (sum (map (fun ax => mul (s ax) (x ax)) axes)).
End Arithmetic.
