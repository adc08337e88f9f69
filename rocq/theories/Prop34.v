(** C34: elementwise operations on uncertain arrays treat the nominal value and
    every sample as separate worlds. *)
From Coq Require Import String List Arith ZArith Bool Lia.
From Verif Require Import Base BaseFacts Numpy Shapes Scalar Elementwise Vector Uncertain Spec SpecUncertain UncertainFacts.
Import ListNotations.
Open Scope nat_scope.
Open Scope list_scope.

(** In every world the result is the operation on the arguments in that world
    ([None] is the nominal world, [Some k] that of sample [k]); one function for
    each output. *)
Theorem C34_ufunc :
  forall (A B : Type) (fs : list (list A -> B)) (inputs : list (uop A)) (rs : list (unc B)),
  Forall uop_wf inputs -> u_ufunc fs inputs = Ok rs ->
  Forall2 (fun f r => u_wf r /\
    broadcast_shapes (op_shapes (map nominal_of inputs)) = Ok (op_shape (u_nominal r)) /\
    broadcast_shapes (op_shapes (map distribution_of inputs)) = Ok (op_shape (u_distribution r)) /\
    forall w e, u_inside r w e -> u_at (Uncertain r) w e = f (map (fun x => u_at x w e) inputs)) fs rs.
Proof. exact @u_ufunc_spec. Qed.
Print Assumptions C34_ufunc.

(** The operation succeeds exactly when the shapes are compatible in both parts
    and no certain argument carries the axis of the samples. *)
Theorem C34_success :
  forall (A B : Type) (fs : list (list A -> B)) (inputs : list (uop A)),
  Forall uop_wf inputs -> fs <> [] ->
  ((exists rs, u_ufunc fs inputs = Ok rs) <->
   ~ conflict (op_shapes (map nominal_of inputs)) /\ ~ conflict (op_shapes (map distribution_of inputs)) /\
   (forall o, In (Certain o) inputs -> ~ In axis_distribution (dkeys (op_shape o)))).
Proof. exact @u_ufunc_success. Qed.
Print Assumptions C34_success.

(** Where the arguments do not depend on the sample, neither does the result. *)
Theorem C34_certain :
  forall (A B : Type) (fs : list (list A -> B)) (inputs : list (uop A)) (rs : list (unc B)) (k : nat) (e : env),
  Forall uop_wf inputs -> u_ufunc fs inputs = Ok rs ->
  (forall x, In x inputs -> u_at x (Some k) e = u_at x None e) ->
  Forall (fun r => u_inside r None e -> u_inside r (Some k) e ->
                   u_at (Uncertain r) (Some k) e = u_at (Uncertain r) None e) rs.
Proof. exact @u_ufunc_certain. Qed.
Print Assumptions C34_certain.

(** The same for [where], whose condition may be uncertain. *)
Theorem C34_where :
  forall (A : Type) (c : uop bool) (x y : uop A) (r : unc A),
  uop_wf c -> uop_wf x -> uop_wf y -> u_where c x y = Ok r ->
  u_wf r /\
  broadcast_shapes [op_shape (nominal_of c); op_shape (nominal_of x); op_shape (nominal_of y)] = Ok (op_shape (u_nominal r)) /\
  broadcast_shapes [op_shape (distribution_of c); op_shape (distribution_of x); op_shape (distribution_of y)]
    = Ok (op_shape (u_distribution r)) /\
  forall w e, u_inside r w e -> u_at (Uncertain r) w e = if u_at c w e then u_at x w e else u_at y w e.
Proof. exact @u_where_spec. Qed.
Print Assumptions C34_where.

Open Scope string_scope.

(** an uncertain array of two elements along x with three samples, a certain
    array along y and a number *)
Definition x34 : unc nat :=
  mkU (OpArr (mkS (mkNd [2] (fun i => 10 + nth 0 i 0)) ["x"]))
      (OpArr (mkS (mkNd [3; 2] (fun i => 100 * (1 + nth 0 i 0) + nth 1 i 0)) ["_distribution"; "x"])).
Definition y34 : operand nat := OpArr (mkS (mkNd [2] (fun i => 20 * nth 0 i 0)) ["y"]).
Definition sum34 (l : list nat) : nat := fold_right Nat.add 0 l.
Definition in34 : list (uop nat) := [Uncertain x34; Certain y34; Certain (OpNum 1000)].
Definition show34 (o : operand nat) : shape * list nat :=
  match o with
  | OpArr a => (sshape a, map (nget (s_nd a)) (ndindex (nshape (s_nd a))))
  | OpNum v => ([], [v])
  end.

Example C34_inputs : Forall uop_wf in34.
Proof.
  repeat (apply Forall_cons || apply Forall_nil); simpl.
  - split; [split; [repeat constructor; simpl; intuition discriminate|reflexivity]|].
    split; [split; [repeat constructor; simpl; intuition discriminate|reflexivity]|].
    simpl. intuition discriminate.
  - split; [repeat constructor; simpl; tauto|reflexivity].
  - exact Logic.I.
Qed.

Example C34_result :
  match u_ufunc [sum34] in34 with Ok [r] => (show34 (u_nominal r), show34 (u_distribution r)) | _ => (([], []), ([], [])) end =
  (([("x", 2); ("y", 2)], [1010; 1030; 1011; 1031]),
   ([("_distribution", 3); ("x", 2); ("y", 2)],
    [1100; 1120; 1101; 1121; 1200; 1220; 1201; 1221; 1300; 1320; 1301; 1321])).
Proof. vm_compute. reflexivity. Qed.

(** a certain argument with the axis of the samples is refused *)
Example C34_refused :
  u_ufunc [sum34] [Uncertain x34; Certain (OpArr (mkS (mkNd [3] (fun i => nth 0 i 0)) ["_distribution"]))] = Err ValueError.
Proof. vm_compute. reflexivity. Qed.

Example C34_where_result :
  match u_where (Uncertain (mkU (OpNum true) (OpArr (mkS (mkNd [3] (fun i => Nat.eqb (nth 0 i 0) 1)) ["_distribution"]))))
                (Uncertain x34) (Certain y34) with
  | Ok r => (show34 (u_nominal r), show34 (u_distribution r)) | _ => (([], []), ([], []))
  end =
  (([("x", 2); ("y", 2)], [10; 10; 11; 11]),
   ([("_distribution", 3); ("x", 2); ("y", 2)], [0; 20; 0; 20; 200; 200; 201; 201; 0; 20; 0; 20])).
Proof. vm_compute. reflexivity. Qed.
