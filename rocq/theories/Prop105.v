(** C105: the position of the least element of an uncertain scalar is that of every world. *)
From Coq Require Import String List Arith ZArith Bool Lia.
From Verif Require Import Base Numpy Shapes Scalar Elementwise Uncertain UncertainArg
  Spec SpecUncertain SpecUncertainAlong SpecUncertainSort SpecUncertainArg SortingFacts UncertainArgFacts.
Import ListNotations.
Open Scope nat_scope.
Open Scope list_scope.

(** With explicit axes: the index has an entry for every axis, and one for the samples if there
    are any.  In every world it leads to the first of the least elements of that world along the axes; the entry for the
    samples leads to the sample itself.  Axes that cannot be combined, empty axes and empty samples are refused. *)
Theorem C105_axis :
  forall (A : Type) (le : A -> A -> Prop) pick (u : unc A) sh l,
  first_least le pick -> u_wf u -> u_shape u = Ok sh ->
  (~ pickable u sh l -> u_arg_reduce pick u (Some l) = Err ValueError) /\
  (pickable u sh l -> exists d, u_arg_reduce pick u (Some l) = Ok d /\ NoDup (dkeys d) /\
     (forall ax, In ax (dkeys d) <-> In ax (dkeys (sh ++ samples u))) /\ (forall ax v, dget d ax = Some v -> u_wf v) /\
     (forall k e, In axis_distribution (dkeys (samples u)) -> exists_world u (Some k) -> inside_but e sh l ->
        exists v, dget d axis_distribution = Some v /\ u_at (Uncertain v) (Some k) e = Z.of_nat k /\ u_at (Uncertain v) None e = 0%Z) /\
     forall w e, exists_world u w -> inside_but e sh l ->
       exists p, inside p sh /\ (forall ax, In ax (dkeys sh) -> ~ In ax l -> p ax = e ax) /\ leads_to d sh w e p /\
         forall q, inside q sh -> (forall ax, In ax (dkeys sh) -> ~ In ax l -> q ax = e ax) ->
           le (u_at (Uncertain u) w p) (u_at (Uncertain u) w q) /\
           (row_major (map (size_of sh) l) (map q l) < row_major (map (size_of sh) l) (map p l) ->
            ~ le (u_at (Uncertain u) w q) (u_at (Uncertain u) w p))).
Proof. exact @u_argmin_spec. Qed.
Print Assumptions C105_axis.

(** Without axes: the same for all elements together. *)
Theorem C105_none :
  forall (A : Type) (le : A -> A -> Prop) pick (u : unc A) sh,
  first_least le pick -> u_wf u -> u_shape u = Ok sh ->
  let l := dkeys sh in
  (~ pickable u sh l -> u_arg_reduce pick u None = Err ValueError) /\
  (pickable u sh l -> exists d, u_arg_reduce pick u None = Ok d /\ NoDup (dkeys d) /\
     (forall ax, In ax (dkeys d) <-> In ax (dkeys (sh ++ samples u))) /\ (forall ax v, dget d ax = Some v -> u_wf v) /\
     (forall k e, In axis_distribution (dkeys (samples u)) -> exists_world u (Some k) -> inside_but e sh l ->
        exists v, dget d axis_distribution = Some v /\ u_at (Uncertain v) (Some k) e = Z.of_nat k /\ u_at (Uncertain v) None e = 0%Z) /\
     forall w e, exists_world u w -> inside_but e sh l ->
       exists p, inside p sh /\ (forall ax, In ax (dkeys sh) -> ~ In ax l -> p ax = e ax) /\ leads_to d sh w e p /\
         forall q, inside q sh -> (forall ax, In ax (dkeys sh) -> ~ In ax l -> q ax = e ax) ->
           le (u_at (Uncertain u) w p) (u_at (Uncertain u) w q) /\
           (row_major (map (size_of sh) l) (map q l) < row_major (map (size_of sh) l) (map p l) ->
            ~ le (u_at (Uncertain u) w q) (u_at (Uncertain u) w p))).
Proof. exact @u_argmin_none. Qed.
Print Assumptions C105_none.

Open Scope string_scope.

Definition arr (l s : list nat) (axes : list string) : operand nat := OpArr (mkS (of_list 0 s l) axes).

(** nominal values that are constant along [x], with a tie; samples that are constant along [y] *)
Definition ex_u : unc nat := mkU (arr [7; 3; 3] [3] ["y"]) (arr [9; 2; 3; 5] [2; 2] ["_distribution"; "x"]).
(** no samples; an empty axis; no elements among the samples *)
Definition ex_c : unc nat := mkU (arr [4; 1; 6] [3] ["x"]) (OpNum 2).
Definition ex_e : unc nat := mkU (arr [] [0] ["y"]) (arr [9; 2; 3; 5] [2; 2] ["_distribution"; "x"]).
Definition ex_z : unc nat := mkU (arr [1; 2] [2] ["x"]) (arr [] [0] ["_distribution"]).

Definition sh_u : shape := [("y", 3); ("x", 2)].

Example C105_applies : first_least le argmin_nat /\ u_wf ex_u /\ u_shape ex_u = Ok sh_u /\
  pickable ex_u sh_u ["x"] /\ pickable ex_u sh_u ["x"; "y"] /\ pickable ex_u sh_u (dkeys sh_u) /\
  (forall w, exists_world ex_u w <-> match w with Some k => k < 2 | None => True end) /\ inside_but (fun _ => 1) sh_u ["x"] /\
  u_shape ex_e = Ok [("y", 0); ("x", 2)] /\ ~ pickable ex_e [("y", 0); ("x", 2)] ["y"] /\
  u_shape ex_z = Ok [("x", 2)] /\ ~ pickable ex_z [("x", 2)] ["x"] /\ ~ pickable ex_u sh_u ["_distribution"].
Proof.
  assert (P : forall l, l <> [] -> NoDup l -> incl l ["y"; "x"] -> flat_name l <> "x" \/ In "x" l -> flat_name l <> "y" \/ In "y" l -> pickable ex_u sh_u l).
  { intros l H1 H2 H3 H4 H5. split; [|split].
    - split; auto. split; auto. split; auto. intros ax n [H|[H|[]]] K; injection H as <- <-; split; try discriminate; intuition congruence.
    - intros ax _ [H|[H|[]]]; discriminate.
    - cbn. intuition discriminate. }
  split; [apply argmin_nat_first|]. split.
  { split; [split; [repeat constructor; cbn; intuition discriminate|reflexivity]|].
    split; [split; [repeat constructor; cbn; intuition discriminate|reflexivity]|]. cbn. intuition discriminate. }
  split; [reflexivity|].
  split. { apply P; [discriminate|repeat constructor; auto|intros x [<-|[]]; cbn; auto|right; cbn; auto|left; discriminate]. }
  split. { apply P; [discriminate|repeat constructor; cbn; intuition discriminate|intros x [<-|[<-|[]]]; cbn; auto|right; cbn; auto|right; cbn; auto]. }
  split. { apply P; [discriminate|repeat constructor; cbn; intuition discriminate|intros x H; exact H|right; cbn; auto|right; cbn; auto]. }
  split. { intros [k|]; split; auto; [intros H; apply (H 2); now left|intros H n [K|[K|[]]]; [injection K as <-; exact H|discriminate]|intros _ n _; exact I]. }
  split. { intros ax n [H|[H|[]]] K; injection H as <- <-; cbn in *; lia || (exfalso; apply K; now left). }
  split; [reflexivity|]. split. { intros (_ & H & _). apply (H "y"); cbn; auto. }
  split; [reflexivity|]. split. { intros (_ & _ & H). apply H. cbn. auto. }
  intros ((_ & _ & H & _) & _). destruct (H "_distribution" ltac:(now left)) as [K|[K|[]]]; discriminate.
Qed.

Definition show1 {A} (u : unc A) :=
  let f o := (sshape (normalize o), ravel (s_nd (normalize o))) in (f (u_nominal u), f (u_distribution u)).
Definition show (r : res (dict (unc Z))) := match r with Ok d => Ok (map (fun kv => (fst kv, show1 (snd kv))) d) | Err e => Err e end.

(** the worlds have their least elements at different places *)
Example C105_example :
  show (u_arg_reduce argmin_nat ex_u (Some ["x"])) = Ok [("x", ([("y", 3)], [0%Z; 0%Z; 0%Z], ([("_distribution", 2); ("y", 3)], [1%Z; 1%Z; 1%Z; 0%Z; 0%Z; 0%Z]))); ("y", ([("y", 3)], [0%Z; 1%Z; 2%Z], ([("_distribution", 1); ("y", 3)], [0%Z; 1%Z; 2%Z]))); ("_distribution", ([], [0%Z], ([("_distribution", 2)], [0%Z; 1%Z])))] /\
  show (u_arg_reduce argmin_nat ex_u (Some ["x"; "y"])) = Ok [("x", ([], [0%Z], ([("_distribution", 2)], [1%Z; 0%Z]))); ("y", ([], [1%Z], ([("_distribution", 2)], [0%Z; 0%Z]))); ("_distribution", ([], [0%Z], ([("_distribution", 2)], [0%Z; 1%Z])))] /\
  show (u_arg_reduce argmin_nat ex_u None) = Ok [("y", ([], [1%Z], ([("_distribution", 2)], [0%Z; 0%Z]))); ("x", ([], [0%Z], ([("_distribution", 2)], [1%Z; 0%Z]))); ("_distribution", ([], [0%Z], ([("_distribution", 2)], [0%Z; 1%Z])))] /\
  show (u_arg_reduce argmin_nat ex_c (Some ["x"])) = Ok [("x", ([], [1%Z], ([("_distribution", 1)], [0%Z])))] /\
  show (u_arg_reduce argmin_nat ex_c None) = Ok [("x", ([], [1%Z], ([("_distribution", 1)], [0%Z])))].
Proof. repeat split; reflexivity. Qed.

(** indexing with it gives the least element of every world *)
Example C105_example_least :
  match (d <- u_arg_reduce argmin_nat ex_u (Some ["x"]) ;; u_getitem ex_u (map (fun kv => (fst kv, Index (snd kv))) d)) with Ok u => Ok (show1 u) | Err e => Err e end = Ok ([("y", 3)], [7; 3; 3], ([("_distribution", 2); ("y", 3)], [2; 2; 2; 3; 3; 3])).
Proof. reflexivity. Qed.

Example C105_example_refusals :
  u_arg_reduce argmin_nat ex_e (Some ["y"]) = Err ValueError /\ u_arg_reduce argmin_nat ex_e None = Err ValueError /\
  u_arg_reduce argmin_nat ex_z (Some ["x"]) = Err ValueError /\ u_arg_reduce argmin_nat ex_z None = Err ValueError /\
  u_arg_reduce argmin_nat ex_u (Some ["_distribution"]) = Err ValueError /\ u_arg_reduce argmin_nat ex_u (Some ["w"]) = Err ValueError /\
  u_arg_reduce argmin_nat ex_u (Some ["x"; "x"]) = Err ValueError /\ u_arg_reduce argmin_nat ex_u (Some []) = Err ValueError /\
  u_arg_reduce argmin_nat (mkU (OpNum 3) (arr [1; 2] [2] ["_distribution"])) None = Err ValueError.
Proof. repeat split; reflexivity. Qed.
