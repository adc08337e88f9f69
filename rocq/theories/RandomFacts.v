(** Facts about random samples. *)
From Coq Require Import String List Arith ZArith Bool Lia.
From Verif Require Import Base BaseFacts Numpy NumpyFacts Shapes Scalar Vector Random Spec SpecVector SpecRandom
  ShapesFacts AlignFacts LinspaceFacts VectorFacts VectorIndexFacts OptimizeFacts UncertainFacts.
Import ListNotations.
Open Scope nat_scope.
Open Scope list_scope.

Section R.
  Context {A B : Type} (sample : option Z -> A -> res B).

  Fixpoint r_components (seed : option Z) (i : nat) (cs : list (string * tree (rleaf A))) : res (list (string * tree (rleaf B))) :=
    match cs with
    | [] => Ok []
    | (c, t) :: cs => r <- r_vector sample (shift seed i) t ;; rs <- r_components seed (S i) cs ;; Ok ((c, r) :: rs)
    end.

  Lemma r_vector_node seed ty cs : r_vector sample seed (Node ty cs) = (rs <- r_components seed 0 cs ;; Ok (Node ty rs)).
  Proof.
    cbn [r_vector]. 
    assert (E : forall cs i, (fix go (i : nat) (cs : list (string * tree (rleaf A))) : res (list (string * tree (rleaf B))) :=
                 match cs with
                 | [] => Ok []
                 | (c, t) :: cs =>
                     r <- r_vector sample (shift seed i) t ;;
                     rs <- go (S i) cs ;;
                     Ok ((c, r) :: rs)
                 end) i cs = r_components seed i cs).
    { clear. induction cs as [|[c t] cs IH]; intros i; auto. cbn [r_components].
      destruct (r_vector sample (shift seed i) t); auto. cbn [bind]. now rewrite IH. }
    now rewrite E.
  Qed.

  Lemma r_components_nth seed i cs rs : r_components seed i cs = Ok rs ->
    length rs = length cs /\ forall j c t, nth_error cs j = Some (c, t) ->
      exists r, nth_error rs j = Some (c, r) /\ r_vector sample (shift seed (i + j)) t = Ok r.
  Proof.
    revert i rs. induction cs as [|[c t] cs IH]; intros i rs H; cbn [r_components] in H.
    - injection H as <-. split; auto. intros [|j]; discriminate.
    - apply bind_ok in H as (r & Hr & H). apply bind_ok in H as (rs' & Hrs & H). injection H as <-.
      destruct (IH (S i) rs' Hrs) as [L N]. split; [cbn; now rewrite L|].
      intros [|j] c' t' E; cbn in E.
      + injection E as <- <-. exists r. rewrite Nat.add_0_r. auto.
      + destruct (N j c' t' E) as (r' & E' & H'). exists r'. split; auto. now rewrite <- Nat.add_succ_comm.
  Qed.

  Lemma shift_plus seed i k : seed_plus (shift seed i) k = seed_plus seed (i + k).
  Proof. destruct seed; cbn; auto. f_equal. lia. Qed.

  Lemma seed_plus_0 seed : seed_plus seed 0 = seed.
  Proof. destruct seed; cbn; auto. f_equal. lia. Qed.

  Theorem r_vector_spec seed t r path : r_vector sample seed t = Ok r ->
    match leaf_at path t with
    | Some (RScalar a) => exists b, leaf_at path r = Some (RScalar b) /\ sample (seed_plus seed (total path)) a = Ok b
    | Some (RUncertain n d) => exists n' d', leaf_at path r = Some (RUncertain n' d') /\
        sample (seed_plus seed (total path)) n = Ok n' /\ sample (seed_plus seed (S (total path))) d = Ok d'
    | None => leaf_at path r = None
    end.
  Proof.
    revert seed t r. induction path as [|i path IH]; intros seed t r H.
    - destruct t as [l|ty cs]; cbn [leaf_at].
      + cbn [r_vector] in H. apply bind_ok in H as (l' & Hl & H). injection H as <-. cbn [total fold_right].
        rewrite seed_plus_0. destruct l as [a|n d]; cbn [r_leaf] in Hl.
        * apply bind_ok in Hl as (b & Hb & Hl). injection Hl as <-. eauto.
        * apply bind_ok in Hl as (n' & Hn & Hl). apply bind_ok in Hl as (d' & Hd & Hl). injection Hl as <-.
          exists n', d'. repeat split; auto.
      + rewrite r_vector_node in H. apply bind_ok in H as (rs & _ & H). injection H as <-. reflexivity.
    - destruct t as [l|ty cs]; cbn [leaf_at].
      + cbn [r_vector] in H. apply bind_ok in H as (l' & Hl & H). injection H as <-. reflexivity.
      + rewrite r_vector_node in H. apply bind_ok in H as (rs & Hrs & H). injection H as <-.
        destruct (r_components_nth _ _ _ _ Hrs) as [L N].
        destruct (nth_error cs i) as [[c t]|] eqn:E.
        * destruct (N i c t E) as (r' & E' & H'). cbn [leaf_at]. rewrite E'. cbn [Nat.add] in H'.
          specialize (IH _ _ _ H'). rewrite !shift_plus in IH. cbn [total fold_right]. fold (total path).
          rewrite Nat.add_succ_r in IH. exact IH.
        * assert (nth_error rs i = None) as ->; auto. apply nth_error_None. rewrite L. now apply nth_error_None.
  Qed.
End R.

Lemma r_vector_flat {A B} (sample : option Z -> A -> res B) s ty (cs : list (string * A)) r i j ci cj ai aj :
  r_vector sample (Some s) (Node ty (map (fun p => (fst p, Leaf (RScalar (snd p)))) cs)) = Ok r ->
  nth_error cs i = Some (ci, ai) -> nth_error cs j = Some (cj, aj) -> i <> j ->
  exists si sj bi bj, si <> sj /\ sample (Some si) ai = Ok bi /\ sample (Some sj) aj = Ok bj /\
    leaf_at [i] r = Some (RScalar bi) /\ leaf_at [j] r = Some (RScalar bj).
Proof.
  intros H Hi Hj NE.
  assert (Li := r_vector_spec sample _ _ _ [i] H). assert (Lj := r_vector_spec sample _ _ _ [j] H).
  set (t := Node ty _) in Li, Lj.
  assert (Ei : leaf_at [i] t = Some (RScalar ai)) by (unfold t; cbn [leaf_at]; rewrite nth_error_map, Hi; reflexivity).
  assert (Ej : leaf_at [j] t = Some (RScalar aj)) by (unfold t; cbn [leaf_at]; rewrite nth_error_map, Hj; reflexivity).
  rewrite Ei in Li. rewrite Ej in Lj. destruct Li as (bi & Li & Si). destruct Lj as (bj & Lj & Sj).
  cbn [seed_plus option_map total fold_right] in Si, Sj.
  exists (s + Z.of_nat (i + 0))%Z, (s + Z.of_nat (j + 0))%Z, bi, bj. repeat split; auto. lia.
Qed.

Lemma fits_nil (sh : shape) : fits_in [] sh.
Proof. intros ax n []. Qed.

Theorem r_scalar_spec {A R} (generate : option Z -> list nat -> list (nd A) -> list nat -> R) shape_random seed args r :
  Forall op_wf args -> NoDup (dkeys shape_random) -> r_scalar generate shape_random seed args = Ok r ->
  wf r /\ exists sb, broadcast_shapes (op_shapes args) = Ok sb /\ broadcast_shapes [sb; shape_random] = Ok (sshape r).
Proof.
  intros W N H. unfold r_scalar in H. apply bind_ok in H as (sb & Eb & H). apply bind_ok in H as (sh & Es & H).
  apply bind_ok in H as (args' & _ & H).
  assert (Nb : NoDup (dkeys sb)) by (destruct (broadcast_shapes_ok _ _ (op_shapes_nodup _ W) Eb) as (X & _); exact X).
  assert (NS : NoDup (dkeys sh)). { eapply broadcast_shapes_ok; [|exact Es]. repeat constructor; auto. }
  unfold mk_sarr in H.
  destruct (negb _) in H; [discriminate|]. destruct (negb _) in H; [discriminate|].
  injection H as <-.
  assert (E : sshape (mkS (mkNd (dvals sh) (generate seed (dvals sh) args')) (dkeys sh)) = sh).
  { unfold sshape. cbn [s_axes s_nd nshape]. unfold dkeys, dvals. clear. induction sh as [|[k v] sh IH]; auto. cbn. now rewrite IH. }
  split.
  - split; [exact NS|]. cbn. unfold dkeys, dvals. now rewrite !map_length.
  - exists sb. split; auto. now rewrite E.
Qed.
