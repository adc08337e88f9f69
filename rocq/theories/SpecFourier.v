(** Specification vocabulary for Fourier transforms. *)
From Coq Require Import String List Arith Bool.
From Verif Require Import Base Numpy Shapes Scalar Spec Fourier.
Import ListNotations.
Open Scope nat_scope.
Open Scope list_scope.

(** the first [n] elements of a list, with zeros behind its end *)
Definition padded {A} (zero : A) (n : nat) (l : list A) : list A := map (fun i => nth i l zero) (seq 0 n).

(** the transform along one axis of size [m] *)
Definition spectrum {A} (zero : A) (t : transform A) (n : nat) (x : string) (m : nat) (v : env -> A) : env -> A :=
  fun e => t_value t n (padded zero (t_in t n) (map (fun i => v (set_env e x i)) (seq 0 m))) (e x).

(** a step of a transform along several axes: the transform, the axis and [n] *)
Definition stage (A : Type) : Type := (transform A * (string * nat))%type.

(** the transforms of several axes one after the other *)
Fixpoint spectra {A} (zero : A) (l : list (stage A)) (sh : shape) (v : env -> A) : env -> A :=
  match l with
  | [] => v
  | (t, (x, n)) :: l => spectra zero l (resized sh x (t_out t n)) (spectrum zero t n x (size_of sh x) v)
  end.

Fixpoint spectra_shape {A} (l : list (stage A)) (sh : shape) : shape :=
  match l with
  | [] => sh
  | (t, (x, n)) :: l => spectra_shape l (resized sh x (t_out t n))
  end.

(** the order of the steps: complex transforms begin with the last axis; those from
    real numbers begin with the real transform of the last axis; those to real numbers
    begin with the first axis and end with the real transform of the last one *)
Inductive stages {A} : ntransform A -> list (string * nat) -> list (stage A) -> Prop :=
| stages_complex t l : stages (NComplex t) l (map (pair t) (rev l))
| stages_from_real t real l x : stages (NFromReal t real) (l ++ [x]) ((real, x) :: map (pair t) (rev l))
| stages_to_real t real l x : stages (NToReal t real) (l ++ [x]) (map (pair t) l ++ [(real, x)]).

(** new names of axes *)
Definition renamed (names : dict string) (ax : string) : string :=
  match dget names ax with Some y => y | None => ax end.
