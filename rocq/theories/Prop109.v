(** C109: the functions of [np.emath] act element by element, and in every world of uncertain scalars. *)
From Coq Require Import String List Arith ZArith Bool Lia.
From Verif Require Import Base Numpy Shapes Scalar Elementwise Uncertain UncertainChoice Emath
  Spec SpecUncertain SpecUncertainChoice EmathFacts.
Import ListNotations.
Open Scope nat_scope.
Open Scope list_scope.

(** Scalar arrays and numbers: arguments broadcast by name, and every element of the result is
    the function of the elements of the arguments at that position; arguments that do not broadcast are refused. *)
Theorem C109_scalars :
  forall (A B : Type) (f : list A -> B) l,
  Forall op_wf l ->
  (forall sh, broadcast_shapes (map op_shape l) = Ok sh ->
     exists r, na_emath f l = Ok r /\ wf r /\ sshape r = sh /\ forall e, at_ r e = f (map (fun o => op_at o e) l)) /\
  (forall x, broadcast_shapes (map op_shape l) = Err x -> na_emath f l = Err ValueError).
Proof. exact @na_emath_spec. Qed.
Print Assumptions C109_scalars.

(** Uncertain scalars, scalar arrays and numbers: the same in the nominal world and in the world of every
    sample; arguments are refused if either part does not broadcast. *)
Theorem C109_uncertain :
  forall (A B : Type) (f : list A -> B) (l : list (uop A)),
  Forall uop_wf l -> Forall sample_free l ->
  (forall shn shd, broadcast_shapes (map (fun x => op_shape (nominal_of x)) l) = Ok shn ->
     broadcast_shapes (map (fun x => op_shape (distribution_of x)) l) = Ok shd ->
     exists u, u_emath f l = Ok u /\ u_wf u /\ op_shape (u_nominal u) = shn /\ op_shape (u_distribution u) = shd /\
       forall w e, u_inside u w e -> u_at (Uncertain u) w e = f (map (fun x => u_at x w e) l)) /\
  (forall x, broadcast_shapes (map (fun x => op_shape (nominal_of x)) l) = Err x \/
     broadcast_shapes (map (fun x => op_shape (distribution_of x)) l) = Err x -> u_emath f l = Err ValueError).
Proof. exact @u_emath_spec. Qed.
Print Assumptions C109_uncertain.

(** Scalar arrays that have the axis of the samples themselves are refused. *)
Theorem C109_samples_refused :
  forall (A B : Type) (f : list A -> B) (l : list (uop A)),
  Exists (fun x => ~ sample_free x) l -> u_emath f l = Err ValueError.
Proof. exact @u_emath_samples. Qed.
Print Assumptions C109_samples_refused.

Open Scope string_scope.

Definition arr (l s : list nat) (axes : list string) : operand nat := OpArr (mkS (of_list 0 s l) axes).
Definition power (l : list nat) : nat := match l with [x; y] => x ^ y | _ => 0 end.

(** an uncertain base, and an exponent without uncertainty *)
Definition ex_b : uop nat := Uncertain (mkU (OpNum 2) (arr [3; 1] [2] ["_distribution"])).
Definition ex_p : uop nat := Certain (arr [0; 1; 2] [3] ["x"]).
(** the samples do not fit *)
Definition ex_3 : uop nat := Uncertain (mkU (OpNum 2) (arr [3; 1; 1] [3] ["_distribution"])).

Example C109_applies : Forall uop_wf [ex_b; ex_p] /\ Forall sample_free [ex_b; ex_p] /\
  broadcast_shapes (map (fun x => op_shape (nominal_of x)) [ex_b; ex_p]) = Ok [("x", 3)] /\
  broadcast_shapes (map (fun x => op_shape (distribution_of x)) [ex_b; ex_p]) = Ok [("_distribution", 2); ("x", 3)] /\
  broadcast_shapes (map (fun x => op_shape (distribution_of x)) [ex_b; ex_3]) = Err ValueError /\
  Forall op_wf [arr [2; 3] [2] ["y"]; arr [0; 1; 2] [3] ["x"]; OpNum 4] /\
  broadcast_shapes (map op_shape [arr [2; 3] [2] ["y"]; arr [0; 1; 2] [3] ["x"]; OpNum 4]) = Ok [("y", 2); ("x", 3)].
Proof.
  assert (W : forall l s ax, length s = 1 -> op_wf (arr l s [ax])). { intros l s ax H. split; [apply NoDup_cons; [intros []|apply NoDup_nil]|symmetry; exact H]. }
  split. { apply Forall_cons; [|apply Forall_cons; [|apply Forall_nil]]; [|now apply W]. split; [exact I|]. split; [now apply W|]. intros []. }
  split. { apply Forall_cons; [exact I|apply Forall_cons; [|apply Forall_nil]]. cbn. intuition discriminate. }
  split; [reflexivity|]. split; [reflexivity|]. split; [reflexivity|]. split; [|reflexivity].
  apply Forall_cons; [now apply W|]. apply Forall_cons; [now apply W|]. apply Forall_cons; [exact I|apply Forall_nil].
Qed.

Definition show1 {A} (u : unc A) :=
  let f o := (sshape (normalize o), ravel (s_nd (normalize o))) in (f (u_nominal u), f (u_distribution u)).

Example C109_example :
  match na_emath power [arr [2; 3] [2] ["y"]; arr [0; 1; 2] [3] ["x"]] with Ok r => Ok (sshape r, ravel (s_nd r)) | Err e => Err e end
    = Ok ([("y", 2); ("x", 3)], [1; 2; 4; 1; 3; 9]) /\
  match u_emath power [ex_b; ex_p] with Ok u => Ok (show1 u) | Err e => Err e end
    = Ok ([("x", 3)], [1; 2; 4], ([("_distribution", 2); ("x", 3)], [1; 3; 9; 1; 1; 1])) /\
  match u_emath power [ex_b; Certain (OpNum 3)] with Ok u => Ok (show1 u) | Err e => Err e end = Ok ([], [8], ([("_distribution", 2)], [27; 1])).
Proof. repeat split; reflexivity. Qed.

Example C109_samples_applies : Exists (fun x => ~ sample_free x) [ex_b; Certain (arr [3; 1] [2] ["_distribution"])].
Proof. apply Exists_cons_tl, Exists_cons_hd. intros H. apply H. now left. Qed.

Example C109_example_refusals :
  u_emath power [ex_b; ex_3] = Err ValueError /\ na_emath power [arr [2; 3] [2] ["x"]; arr [0; 1; 2] [3] ["x"]] = Err ValueError.
Proof. split; reflexivity. Qed.
