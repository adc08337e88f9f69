(** Specification vocabulary for [na.random.choice]. *)
From Coq Require Import String List Arith Bool QArith Qcanon.
From Verif Require Import Base Numpy Shapes Scalar Spec SpecNumeric SpecHist Choice.
Import ListNotations.
Open Scope nat_scope.
Open Scope list_scope.

(** numbers that are not zero *)
Definition nonzero (w : Qc) : bool := negb (Qc_eq_bool w 0).

(** The random numbers follow the rules of numpy: when there are enough choices,
    with probabilities that are not negative and add up to 1, the sample consists of
    choices of non-zero probability, and without replacement all are different. *)
Definition lawful {G} (draw : drawing G) : Prop :=
  forall g n p replace size,
  (prod size = 0 \/ n <> 0) ->
  (forall l, p = Some l -> length l = n /\ (forall w, In w l -> (0 <= w)%Qc) /\ qsum l = 1%Qc) ->
  (replace = false -> prod size <= match p with Some l => length (filter nonzero l) | None => n end) ->
  let s := fst (draw g n p replace size) in
  (forall idx, inb idx size -> s idx < n /\ forall l, p = Some l -> nth (s idx) l 0%Qc <> 0%Qc) /\
  (replace = false -> forall idx idx', inb idx size -> inb idx' size -> s idx = s idx' -> idx = idx').

(** the axes that are flattened into a sequence of choices *)
Definition flattened (S : shape) (axis : option (list string)) : list string :=
  match axis with Some l => filter (fun ax => smem ax l) (dkeys S) | None => dkeys S end.

(** the weight of a choice *)
Definition weight (p : option (operand Qc)) (e : env) : Qc :=
  match p with Some w => op_at w e | None => 1%Qc end.

(** the choices at the position [e]: those of non-zero weight *)
Definition candidates (p : option (operand Qc)) (S : shape) (K : list string) (e : env) : list env :=
  filter (fun e' => nonzero (weight p e')) (fibre S K e).

(** [k] choices can be drawn at the position [e] *)
Definition drawable (p : option (operand Qc)) (S : shape) (K : list string) (replace : bool) (k : nat) (e : env) : Prop :=
  (forall e', In e' (fibre S K e) -> (0 <= weight p e')%Qc) /\
  (p <> None -> (0 < qsum (map (weight p) (fibre S K e)))%Qc) /\
  (k <> 0 -> fibre S K e <> []) /\
  (replace = false -> k <= length (candidates p S K e)).

(** the axes of the sample that are not axes of the choices *)
Definition free (shape_random : shape) (O : shape) : shape := without shape_random (dkeys O).

(** fewer than [k] choices can be drawn at the position [e]: there are none, the
    weights add up to zero, one of them is negative, or there are too few *)
Definition undrawable (p : option (operand Qc)) (S : shape) (K : list string) (replace : bool) (k : nat) (e : env) : Prop :=
  (k <> 0 /\ fibre S K e = []) \/
  (p <> None /\ qsum (map (weight p) (fibre S K e)) = 0%Qc) \/
  (p <> None /\ (0 < qsum (map (weight p) (fibre S K e)))%Qc /\ exists e', In e' (fibre S K e) /\ (weight p e' < 0)%Qc) \/
  (replace = false /\ length (candidates p S K e) < k).
