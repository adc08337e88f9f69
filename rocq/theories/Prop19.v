(** C19: cumulative sums and differences are inverse. *)
From Coq Require Import String List Arith ZArith Bool Lia.
From Verif Require Import Base Numpy Shapes Scalar Elementwise Along Spec AlongFacts.
Import ListNotations.
Open Scope nat_scope.
Open Scope list_scope.

(** The exact domain, shape and elements of the cumulative functions: a function
    of the first elements of the line.  Without [axis] the array must have a
    single axis. *)
Theorem C19_cumulative :
  forall (A B : Type) (scan : list A -> B) (initial : bool) (a : sarr A) (axis : option (list string)),
  wf a ->
  let S := match axis with Some l => l | None => s_axes a end in
  (forall ax, S = [ax] -> In ax (s_axes a) ->
     exists r, na_cumulative scan initial a axis None = Ok r /\ wf r /\
       sshape r = resized (sshape a) ax (size_of (sshape a) ax + if initial then 1 else 0) /\
       forall e, at_ r e = scan (firstn (e ax + if initial then 0 else 1) (line a ax e))) /\
  (~ (exists ax, S = [ax] /\ In ax (s_axes a)) -> na_cumulative scan initial a axis None = Err ValueError).
Proof. exact @cumulative_spec. Qed.
Print Assumptions C19_cumulative.

(** The exact domain, shape and lines of the [n]-th difference. *)
Theorem C19_diff :
  forall (A : Type) (sub : A -> A -> A) (n : nat) (a : sarr A) (axis : string) (prepend append : option (operand A)),
  wf a -> (forall o, prepend = Some o -> op_wf o) -> (forall o, append = Some o -> op_wf o) ->
  let extra (o : option (operand A)) := match o with Some b => fun e => [op_at b e] | None => fun _ => [] end in
  let ok := In axis (s_axes a) /\
    (forall o, prepend = Some o \/ append = Some o -> op_fits o (resized (sshape a) axis 1)) in
  (ok -> exists r, na_diff sub n a axis prepend append = Ok r /\ wf r /\ s_axes r = s_axes a /\
     (forall ax, In ax (s_axes a) -> ax <> axis -> size_of (sshape r) ax = size_of (sshape a) ax) /\
     forall e, line r axis e =
       match n with
       | 0 => line a axis e
       | _ => Nat.iter n (delta sub) (extra prepend e ++ line a axis e ++ extra append e)
       end) /\
  (~ ok -> na_diff sub n a axis prepend append = Err ValueError).
Proof. exact @diff_spec. Qed.
Print Assumptions C19_diff.

(** The differences of the cumulative sum with the initial zero are the array;
    no associativity or commutativity is needed. *)
Theorem C19_diff_cumulative :
  forall (A : Type) (add sub : A -> A -> A) (zero : A) (a : sarr A) (axis : string),
  (forall x y, sub (add x y) x = y) -> (forall x, sub x zero = x) ->
  wf a -> In axis (s_axes a) ->
  exists s d, na_cumulative (sum_list add zero) true a (Some [axis]) None = Ok s /\
    na_diff sub 1 s axis None None = Ok d /\ same_array d a.
Proof. exact @diff_cumulative. Qed.
Print Assumptions C19_diff_cumulative.

(** The cumulative sum of the differences, started from zero, is the array. *)
Theorem C19_cumulative_diff :
  forall (A : Type) (add sub : A -> A -> A) (zero : A) (a : sarr A) (axis : string),
  (forall x y, add x (sub y x) = y) -> (forall x, sub x zero = x) ->
  wf a -> In axis (s_axes a) ->
  exists d s, na_diff sub 1 a axis (Some (OpNum zero)) None = Ok d /\
    na_cumulative (sum_list add zero) false d (Some [axis]) None = Ok s /\ same_array s a.
Proof. exact @cumulative_diff. Qed.
Print Assumptions C19_cumulative_diff.

Open Scope string_scope.
Definition ex_a : sarr Z := mkS (of_list 0%Z [2; 3] [1; 2; 3; 4; 5; 6]%Z) ["x"; "y"].

Example C19_example :
  exists s d, na_cumulative (sum_list Z.add 0%Z) true ex_a (Some ["y"]) None = Ok s /\
    sshape s = [("x", 2); ("y", 4)] /\ ravel (s_nd s) = [0; 1; 3; 6; 0; 4; 9; 15]%Z /\
    na_diff Z.sub 1 s "y" None None = Ok d /\ ravel (s_nd d) = [1; 2; 3; 4; 5; 6]%Z /\
    (forall x y, Z.sub (Z.add x y) x = y) /\ (forall x, Z.sub x 0 = x).
Proof. do 2 eexists. repeat split; intros; lia. Qed.

Example C19_example_diff :
  exists d, na_diff Z.sub 2 ex_a "y" (Some (OpArr (mkS (of_list 0%Z [2] [10; 20]%Z) ["x"]))) (Some (OpNum 0%Z)) = Ok d /\
    sshape d = [("x", 2); ("y", 3)] /\ ravel (s_nd d) = [10; 0; -4; 17; 0; -7]%Z /\
    na_diff Z.sub 2 ex_a "y" (Some (OpArr (mkS (of_list 0%Z [3] [1; 2; 3]%Z) ["y"]))) None = Err ValueError.
Proof. eexists. repeat split. Qed.
