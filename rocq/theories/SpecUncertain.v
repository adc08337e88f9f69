(** Specification of uncertain arrays: the nominal value and every sample are
    separate worlds. *)
From Coq Require Import String List Arith ZArith Bool.
From Verif Require Import Base Numpy Shapes Scalar Elementwise Uncertain Spec.
Import ListNotations.
Open Scope nat_scope.
Open Scope list_scope.

Definition u_wf {A} (u : unc A) : Prop :=
  op_wf (u_nominal u) /\ op_wf (u_distribution u) /\ ~ In axis_distribution (dkeys (op_shape (u_nominal u))).

Definition uop_wf {A} (x : uop A) : Prop := match x with Uncertain u => u_wf u | Certain o => op_wf o end.

(** the value at [e] in the nominal world ([None]) or in the world of sample [k];
    a certain value is the same in every world *)
Definition u_at {A} (x : uop A) (w : option nat) (e : env) : A :=
  match x, w with
  | Uncertain u, None => op_at (u_nominal u) e
  | Uncertain u, Some k => op_at (u_distribution u) (set_env e axis_distribution k)
  | Certain o, _ => op_at o e
  end.

(** [e] is a position of [u] in the given world *)
Definition u_inside {A} (u : unc A) (w : option nat) (e : env) : Prop :=
  match w with
  | None => inside e (op_shape (u_nominal u))
  | Some k => inside (set_env e axis_distribution k) (op_shape (u_distribution u))
  end.

(** the labelled index that addresses the distribution in the world of a sample *)
Definition in_world (w : option nat) (e : env) : env :=
  match w with Some k => set_env e axis_distribution k | None => e end.

(** the part of an uncertain array that belongs to a world *)
Definition u_part {A} (u : unc A) (w : option nat) : operand A :=
  match w with Some _ => u_distribution u | None => u_nominal u end.

Definition uitem_wf (i : uitem) : Prop := match i with Plain i => item_wf i | Index u => u_wf u end.

(** [p] is the position read in a world along an axis of size [n] which is indexed
    by [i], when the result is looked up at [e] *)
Definition u_selects (n : nat) (i : option uitem) (w : option nat) (e : env) (ax : string) (p : nat) : Prop :=
  match i with
  | None => selects n None (in_world w e) ax p
  | Some (Plain i) => selects n (Some i) (in_world w e) ax p
  | Some (Index u) => index_is n (u_at (Uncertain u) w e) p
  end.

(** the items that index the part of a world *)
Definition item_in (i : uitem) (w : option nat) : item :=
  match i with Plain i => i | Index u => ItArr (normalize (u_part u w)) end.

Definition items_in (it : dict uitem) (w : option nat) : dict item := map (fun kv => (fst kv, item_in (snd kv) w)) it.
