(** C106: the elements of an uncertain scalar that are zero in no world. *)
From Coq Require Import String List Arith ZArith Bool Lia Sorted.
From Verif Require Import Base Numpy Shapes Scalar Elementwise Nonzero Uncertain UncertainNonzero
  Spec SpecUncertain SpecUncertainSort SpecUncertainNonzero UncertainNonzeroFacts.
Import ListNotations.
Open Scope nat_scope.
Open Scope list_scope.

(** If there is an axis of samples: the result has an entry for every axis, along one new axis,
    that leads to the elements that are zero neither nominally nor in any sample, each of them once and in row-major order.
    Missing: uncertain scalars without an axis of samples, see [C106_certain_refuted]. *)
Theorem C106_partial :
  forall (A : Type) (truth : A -> bool) mul prod (u : unc A) sh num,
  no_zero_divisors truth mul prod -> u_wf u -> u_shape u = Ok sh ->
  In (axis_distribution, num) (op_shape (u_distribution u)) ->
  exists d l, u_nonzero truth mul prod u = Ok d /\ NoDup (dkeys d) /\ (forall ax, In ax (dkeys d) <-> In ax (dkeys sh)) /\
    never_zeros truth u num sh (dkeys d) l /\
    forall ax b, dget d ax = Some b -> wf b /\ sshape b = [(flat_name (dkeys d), length l)] /\
      forall e, inside e (sshape b) -> exists p, inside p sh /\ never_zero truth u num p /\
        nth_error l (e (flat_name (dkeys d))) = Some (map p (dkeys d)) /\ at_ b e = Z.of_nat (p ax).
Proof. exact @u_nonzero_spec. Qed.
Print Assumptions C106_partial.

(** Without an axis of samples the call is refused, whatever the elements are. *)
Theorem C106_refuses :
  forall (A : Type) (truth : A -> bool) mul prod (u : unc A),
  u_wf u -> ~ In axis_distribution (dkeys (op_shape (u_distribution u))) ->
  u_nonzero truth mul prod u = Err (match u_distribution u with OpArr _ => ValueError | OpNum _ => TypeError end).
Proof. exact @u_nonzero_certain. Qed.
Print Assumptions C106_refuses.

Open Scope string_scope.

Definition arr (l : list Z) (s : list nat) (axes : list string) : operand Z := OpArr (mkS (of_list 0%Z s l) axes).
Definition truth (z : Z) : bool := negb (z =? 0)%Z.
Definition times (l : list Z) : Z := fold_right Z.mul 1%Z l.

(** nominal values along [y], samples along [x] *)
Definition ex_u : unc Z := mkU (arr [4; 0; 5]%Z [3] ["y"]) (arr [1; 2; 3; 1; 0; 1]%Z [2; 3] ["_distribution"; "x"]).
Definition sh_u : shape := [("y", 3); ("x", 3)].
(** no axis of samples: an array, a number *)
Definition ex_a : unc Z := mkU (arr [4; 0; 5]%Z [3] ["y"]) (arr [1; 2; 3]%Z [3] ["y"]).
Definition ex_n : unc Z := mkU (arr [4; 0; 5]%Z [3] ["y"]) (OpNum 1%Z).

Lemma times_truth l : truth (times l) = true <-> forall x, In x l -> truth x = true.
Proof.
  assert (T : forall z, truth z = true <-> z <> 0%Z) by (intros z; unfold truth; now rewrite negb_true_iff, Z.eqb_neq).
  induction l as [|y l IH]; [split; [intros _ x []|reflexivity]|].
  rewrite T. cbn [times fold_right]. fold (times l). rewrite <- Z.neq_mul_0, <- !T, IH. split.
  - intros [H1 H2] x [<-|Hx]; auto.
  - intros H. split; [apply H; now left|]. intros x Hx. apply H. now right.
Qed.

Example C106_applies : no_zero_divisors truth times times /\ u_wf ex_u /\ u_shape ex_u = Ok sh_u /\
  In (axis_distribution, 2) (op_shape (u_distribution ex_u)) /\
  never_zero truth ex_u 2 (fun ax => if String.eqb ax "y" then 2 else 0) /\
  ~ never_zero truth ex_u 2 (fun ax => if String.eqb ax "y" then 1 else 0) /\ ~ never_zero truth ex_u 2 (fun ax => if String.eqb ax "y" then 2 else 1).
Proof.
  split. { split; [|apply times_truth]. intros x y. rewrite times_truth. split; [intros H; split; apply H; cbn; auto|intros [H1 H2] z [<-|[<-|[]]]; auto]. }
  split. { split; [split; [repeat constructor; cbn; intuition discriminate|reflexivity]|].
    split; [split; [repeat constructor; cbn; intuition discriminate|reflexivity]|]. cbn. intuition discriminate. }
  split; [reflexivity|]. split; [now left|]. split.
  { intros [[|[|k]]|] H; try reflexivity. cbn in H. lia. }
  split; [intros H; specialize (H None I); discriminate|intros H; assert (K : 1 < 2) by lia; specialize (H (Some 1) K); discriminate].
Qed.

Example C106_refuses_applies : u_wf ex_a /\ u_wf ex_n /\
  ~ In axis_distribution (dkeys (op_shape (u_distribution ex_a))) /\ ~ In axis_distribution (dkeys (op_shape (u_distribution ex_n))).
Proof.
  split; [|split; [|split]]; try (cbn; intuition discriminate).
  - split; [split; [repeat constructor; cbn; intuition discriminate|reflexivity]|].
    split; [split; [repeat constructor; cbn; intuition discriminate|reflexivity]|]. cbn. intuition discriminate.
  - split; [split; [repeat constructor; cbn; intuition discriminate|reflexivity]|]. split; [exact I|]. cbn. intuition discriminate.
Qed.

(** the full claim fails: uncertain scalars without an axis of samples, which [u_shape] accepts, are refused *)
Theorem C106_certain_refuted : ~ forall (u : unc Z) sh, u_wf u -> u_shape u = Ok sh -> exists d, u_nonzero truth times times u = Ok d.
Proof. intros H. destruct (H ex_a [("y", 3)] (proj1 C106_refuses_applies) eq_refl) as (d & K). discriminate. Qed.
Print Assumptions C106_certain_refuted.

Definition show (r : res (dict (sarr Z))) := match r with Ok d => Ok (map (fun kv => (fst kv, (sshape (snd kv), ravel (s_nd (snd kv))))) d) | Err e => Err e end.

(** one element is nominally zero, another only in one sample *)
Example C106_example :
  show (u_nonzero truth times times ex_u) = Ok [("y", ([("y*x", 4)], [0%Z; 0%Z; 2%Z; 2%Z])); ("x", ([("y*x", 4)], [0%Z; 2%Z; 0%Z; 2%Z]))] /\
  show (u_nonzero truth times times (mkU (OpNum 3%Z) (arr [1; 0]%Z [2] ["_distribution"]))) = Ok [] /\
  show (u_nonzero truth times times (mkU (OpNum 3%Z) (arr [1; 0]%Z [1; 2] ["_distribution"; "x"]))) = Ok [("x", ([("x", 1)], [0%Z]))].
Proof. repeat split; reflexivity. Qed.

Example C106_example_refusals :
  u_nonzero truth times times ex_a = Err ValueError /\ u_nonzero truth times times ex_n = Err TypeError.
Proof. split; reflexivity. Qed.
