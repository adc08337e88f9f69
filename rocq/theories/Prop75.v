(** C75: [na.numexpr.evaluate] evaluates the expression at every label. *)
From Coq Require Import String List Arith ZArith Bool Lia.
From Verif Require Import Base BaseFacts Numpy Shapes Scalar Elementwise NumExpr
  Spec SpecNumExpr NumExprFacts.
Import ListNotations.
Open Scope nat_scope.
Open Scope list_scope.

(** If every variable is in scope, the result has the common shape of the variables,
    and its elements are the values of the expression for the elements of the
    variables with the same labels.  Missing from the full statement: expressions
    without variables, and variables that have the name of an argument. *)
Theorem C75_evaluate_partial :
  forall (A : Type) (junk : A) (ex : expr A) (local global : dict (operand A)) (rho : string -> operand A)
         (l : list string) (S : shape),
  NoDup l -> l <> [] -> (forall v, In v l <-> occurs v ex) ->
  (forall v, In v l -> scope local global v = Some (rho v) /\ op_wf (rho v) /\ ~ In v reserved) ->
  broadcast_shapes (map (fun v => op_shape (rho v)) l) = Ok S ->
  exists r, na_evaluate junk ex local global = Ok r /\ wf r /\ same_shape (sshape r) S /\
    forall e, inside e S -> at_ r e = meaning (fun v => op_at (rho v) e) ex.
Proof. exact (fun A => evaluate_ok). Qed.
Print Assumptions C75_evaluate_partial.

(** Variables of different sizes along an axis, and variables that are not in scope,
    are refused. *)
Theorem C75_conflict :
  forall (A : Type) (junk : A) (ex : expr A) (local global : dict (operand A)) (rho : string -> operand A) (l : list string),
  NoDup l -> (forall v, In v l <-> occurs v ex) ->
  (forall v, In v l -> scope local global v = Some (rho v) /\ op_wf (rho v) /\ ~ In v reserved) ->
  conflict (map (fun v => op_shape (rho v)) l) -> na_evaluate junk ex local global = Err ValueError.
Proof. exact (fun A => evaluate_conflict). Qed.
Print Assumptions C75_conflict.

Theorem C75_missing :
  forall (A : Type) (junk : A) (ex : expr A) (local global : dict (operand A)) (v : string),
  occurs v ex -> scope local global v = None -> na_evaluate junk ex local global = Err KeyError.
Proof. exact (fun A => evaluate_missing). Qed.
Print Assumptions C75_missing.

(** A variable called like one of the arguments of the functions in between, for
    example [order] or [func], is refused although it is in scope. *)
Theorem C75_names_refuted :
  forall (A : Type) (junk : A) (ex : expr A) (local global : dict (operand A)) (rho : string -> operand A) (v : string),
  (forall v, occurs v ex -> scope local global v = Some (rho v)) -> occurs v ex -> In v reserved ->
  na_evaluate junk ex local global = Err TypeError.
Proof. exact (fun A => evaluate_reserved). Qed.
Print Assumptions C75_names_refuted.

(** An expression without variables is refused. *)
Theorem C75_constant_refuted :
  forall (A : Type) (junk : A) (ex : expr A) (local global : dict (operand A)),
  (forall v, ~ occurs v ex) -> na_evaluate junk ex local global = Err TypeError.
Proof. exact (fun A => evaluate_constant). Qed.
Print Assumptions C75_constant_refuted.

(** ** Examples *)

Open Scope string_scope.

Definition show {A} (r : res (sarr A)) : res (list string * list nat * list A) :=
  match r with Ok a => Ok (s_axes a, nshape (s_nd a), ravel (s_nd a)) | Err e => Err e end.

Definition a_ : operand Z := OpArr (mkS (of_list 0%Z [2] [1; 2]%Z) ["x"]).
Definition b_ : operand Z := OpArr (mkS (of_list 0%Z [2; 2] [10; 20; 30; 40]%Z) ["y"; "x"]).

(** [2 * b - a] *)
Definition ex : expr Z := EBin Z.sub (EBin Z.mul (EConst 2%Z) (EVar "b")) (EVar "a").

Example ex_value :
  show (na_evaluate 0%Z ex [("a", a_); ("c", b_)] [("a", b_); ("b", b_)])
  = Ok (["x"; "y"], [2; 2], [19; 59; 38; 78]%Z).
Proof. vm_compute. reflexivity. Qed.

Example ex_hypotheses :
  (forall v, In v ["a"; "b"] <-> occurs v ex) /\
  scope [("a", a_); ("c", b_)] [("a", b_); ("b", b_)] "a" = Some a_ /\
  broadcast_shapes [op_shape a_; op_shape b_] = Ok [("x", 2); ("y", 2)] /\ ~ In "a" reserved.
Proof.
  split; [|split; [reflexivity|split; [reflexivity|vm_compute; intuition discriminate]]].
  intros v. rewrite occurs_In. simpl. tauto.
Qed.

Example ex_refused :
  show (na_evaluate 0%Z (EVar "order") [("order", a_)] []) = Err TypeError /\
  show (na_evaluate 0%Z (EConst 1%Z) [("a", a_)] []) = Err TypeError /\
  show (na_evaluate 0%Z (EVar "z") [("a", a_)] []) = Err KeyError.
Proof. repeat split; vm_compute; reflexivity. Qed.
