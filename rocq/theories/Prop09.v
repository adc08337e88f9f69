(** C09: [na.broadcast_to] repeats along new names only. *)
From Coq Require Import String List Arith ZArith Bool Lia.
From Verif Require Import Base BaseFacts Numpy Shapes Scalar Spec ShapesFacts AlignFacts.
Import ListNotations.
Open Scope nat_scope.
Open Scope list_scope.

(** The shape [sh] can hold [a]: every axis of [a] is in it with the same size,
    or has size 1 in [a]. *)
Definition fits {A} (a : sarr A) (sh : shape) : Prop :=
  forall ax n, In (ax, n) (sshape a) -> exists m, In (ax, m) sh /\ (n = 1 \/ n = m).

Theorem C09_broadcast_to :
  forall (A : Type) (a : sarr A) (sh : shape),
  wf a -> NoDup (dkeys sh) ->
  (fits a sh <-> exists r, na_broadcast_to a sh false = Ok r) /\
  (forall r, na_broadcast_to a sh false = Ok r ->
     wf r /\ sshape r = sh /\ forall e, at_ r e = bat a e).
Proof.
  intros A a sh W ND. split.
  - split.
    + intros F. apply na_broadcast_to_intro; auto.
      * intros ax Hax. rewrite <- wf_keys in Hax by auto. apply dget_Some_key in Hax as [n Hn].
        destruct (F ax n (dget_In _ _ _ Hn)) as [m [Hm _]]. apply (in_map fst) in Hm. auto.
      * intros ax n Hn. destruct (F ax n (dget_In _ _ _ Hn)) as [m [Hm [?|<-]]]; auto.
    + intros [r Hr] ax n Hin. destruct (na_broadcast_to_ok a sh r W ND Hr) as (I & D & _).
      assert (Hn := dget_NoDup _ _ _ (wf_nodup a W) Hin).
      assert (Hk : In ax (dkeys sh)).
      { apply I. rewrite <- wf_keys by auto. apply dget_Some_key; eauto. }
      apply dget_Some_key in Hk as [m Hm].
      destruct (D ax n Hn) as [->|Hs]; [exists m|exists n]; split; auto.
      now apply dget_In.
  - intros r Hr. destruct (na_broadcast_to_ok a sh r W ND Hr) as (_ & _ & H). auto.
Qed.
Print Assumptions C09_broadcast_to.

(** With [append=True] the axes of [a] come first and the new ones after. *)
Theorem C09_broadcast_to_append :
  forall (A : Type) (a : sarr A) (sh : shape) (r : sarr A),
  wf a -> NoDup (dkeys sh) -> na_broadcast_to a sh true = Ok r ->
  wf r /\ (forall e, at_ r e = bat a e) /\
  (exists new, s_axes r = s_axes a ++ new) /\
  broadcast_shapes [sshape a; sh] = Ok (sshape r).
Proof.
  intros A a sh r W ND H.
  assert (N : Forall (fun s : shape => NoDup (dkeys s)) [sshape a; sh])
    by (repeat constructor; auto; now apply wf_nodup).
  unfold na_broadcast_to in H. destruct (broadcast_shapes [sshape a; sh]) as [sh'|] eqn:E; [|discriminate].
  destruct (broadcast_shapes_ok _ _ N E) as (ND' & K & S).
  change (na_broadcast_to a sh' false = Ok r) in H.
  destruct (na_broadcast_to_ok a sh' r W ND' H) as (_ & _ & Wr & Sr & G).
  split; [auto|split; [auto|split; [|congruence]]].
  rewrite <- (wf_keys r Wr), Sr, K. simpl. rewrite wf_keys, app_nil_r by auto.
  generalize (dkeys sh). destruct W as [NDa _]. induction l as [|x l IH] using rev_ind.
  - exists []. rewrite !app_nil_r. clear - NDa. induction (s_axes a) as [|x l IH] using rev_ind; auto.
    rewrite first_appearance_snoc. apply NoDup_remove in NDa as [N1 N2]. rewrite app_nil_r in *.
    rewrite (proj2 (smem_false x l)) by auto. now rewrite IH.
  - destruct IH as [new IH]. rewrite app_assoc, first_appearance_snoc, IH.
    destruct (smem x (s_axes a ++ l)); eauto. exists (new ++ [x]). now rewrite app_assoc.
Qed.
Print Assumptions C09_broadcast_to_append.

Open Scope string_scope.
Definition ex_a := mkS (of_list 0%Z [2; 1] [7; 8]%Z) ["x"; "y"].

Example C09_example :
  exists r, na_broadcast_to ex_a [("z", 2); ("y", 3); ("x", 2)] false = Ok r /\
    ravel (s_nd r) = [7; 8; 7; 8; 7; 8; 7; 8; 7; 8; 7; 8]%Z.
Proof. eexists; repeat split. Qed.

Example C09_example_append :
  exists r, na_broadcast_to ex_a [("z", 2); ("y", 3)] true = Ok r /\
    sshape r = [("x", 2); ("y", 3); ("z", 2)] /\
    ravel (s_nd r) = [7; 7; 7; 7; 7; 7; 8; 8; 8; 8; 8; 8]%Z.
Proof. eexists; repeat split. Qed.

Example C09_example_fail :
  na_broadcast_to ex_a [("z", 2); ("x", 3)] false = Err ValueError /\
  na_broadcast_to ex_a [("y", 3); ("x", 3)] false = Err ValueError.
Proof. split; reflexivity. Qed.
