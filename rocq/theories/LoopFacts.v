(** Proofs about loops over the positions of some axes of an array. *)
From Coq Require Import String List Arith ZArith Bool Lia.
From Verif Require Import Base BaseFacts Numpy NumpyFacts Shapes ShapesFacts Scalar Elementwise Derived Hist
  Spec SpecNumeric AlignFacts GetitemFacts ReduceFacts SortingFacts AlongFacts
  RankdataFacts RegridFacts ReorderFacts PdfFacts UncertainIndexFacts HistFacts InterpAxisFacts.
From Verif Require VectorIndexFacts.
Import ListNotations.
Open Scope nat_scope.
Open Scope list_scope.

Lemma without_nodup (S : shape) L : NoDup (dkeys S) -> NoDup (dkeys (without S L)).
Proof. intros N. rewrite dkeys_without. now apply NoDup_filter. Qed.

(** the positions of the axes that are not ignored *)
Lemma ignored_pos S L i : NoDup (dkeys S) -> In i (na_ndindex S L) -> pos (without S L) i.
Proof.
  intros N H. destruct (na_ndindex_spec S L N) as (P & _). apply P in H as [K R]. rewrite <- dkeys_without in K.
  split; auto. intros ax n p Hn Hp. apply without_In in Hn as [Hn _]. apply dget_In in Hp.
  destruct (R ax p Hp) as (m & Hm & Lt). now rewrite (entry_eq S ax n m).
Qed.

Definition position_of (O : shape) (e : env) : dict nat := map (fun ax => (ax, e ax)) (dkeys O).

Lemma position_keys O e : dkeys (position_of O e) = dkeys O.
Proof. unfold position_of, dkeys. rewrite map_map. simpl. now rewrite map_id. Qed.

Lemma position_agrees O e : agrees (position_of O e) e.
Proof.
  intros ax p H. apply dget_In in H. unfold position_of in H. apply in_map_iff in H as (x & E & _).
  injection E as <- <-. auto.
Qed.

Lemma ignored_cover S L e : NoDup (dkeys S) -> inside e (without S L) -> In (position_of (without S L) e) (na_ndindex S L).
Proof.
  intros N I. destruct (na_ndindex_spec S L N) as (P & _). apply P. rewrite position_keys, dkeys_without. split; auto.
  intros ax p H. unfold position_of in H. apply in_map_iff in H as (x & E & H). injection E as <- <-.
  apply key_size in H as [n H]. exists n. split; [now apply without_In in H|auto].
Qed.

Lemma agrees_position O i e : NoDup (dkeys O) -> pos O i -> agrees i e -> i = position_of O e.
Proof.
  intros N [K _] G. unfold position_of. rewrite <- K in *. clear K O. induction i as [|[x p] i IH]; auto.
  simpl. inversion N as [|? ? N1 N2]; subst. f_equal.
  - f_equal. symmetry. apply G. simpl. now rewrite String.eqb_refl.
  - apply IH; auto. intros ax q H. apply G. simpl. destruct (String.eqb_spec ax x) as [E|D]; auto. subst.
    exfalso. apply N1. apply dget_Some_key. eauto.
Qed.

Lemma agrees_unique O i j e : NoDup (dkeys O) -> pos O i -> pos O j -> agrees i e -> agrees j e -> i = j.
Proof. intros N P Q G H. rewrite (agrees_position O i e), (agrees_position O j e); auto. Qed.

Lemma pos_inside O i e : NoDup (dkeys O) -> pos O i -> agrees i e -> inside e O.
Proof.
  intros N [K R] G ax n H. assert (In ax (dkeys i)) as Hi by (rewrite K; now apply (in_map fst) in H).
  apply dget_Some_key in Hi as [q Hq]. rewrite (G _ _ Hq). eauto.
Qed.

Lemma pos_agrees_over i e : agrees i (over i e).
Proof. intros ax p H. unfold over. now rewrite H. Qed.

(** the axes that are ignored *)
Definition taken (S : shape) (L : list string) : list string := filter (fun ax => smem ax L) (dkeys S).

Lemma taken_In S L ax : In ax (taken S L) <-> In ax (dkeys S) /\ In ax L.
Proof. unfold taken. rewrite filter_In, smem_In. tauto. Qed.

Lemma taken_apart S L ax : In ax (dkeys S) -> (In ax (taken S L) <-> ~ In ax (dkeys (without S L))).
Proof.
  intros H. rewrite taken_In, dkeys_without, filter_In, negb_true_iff, smem_false.
  destruct (in_dec string_dec ax L); tauto.
Qed.

(** the part of an array at one position *)
Lemma part_fibre {A} (a : sarr A) S L i : wf a -> sshape a = S -> pos (without S L) i ->
  exists r, getitem a (int_items i) = Ok r /\ wf r /\ s_axes r = taken S L /\
    (forall ax n, In (ax, n) (sshape r) <-> In (ax, n) S /\ In ax (taken S L)) /\
    (forall e, inside e (sshape r) -> at_ r e = at_ a (over i e)) /\
    forall e, agrees i e -> ravel (s_nd r) = map (at_ a) (fibre S (taken S L) e).
Proof.
  intros W E P. assert (N : NoDup (dkeys S)) by (rewrite <- E; now apply wf_nodup).
  assert (K : dkeys i = dkeys (without S L)) by apply P.
  assert (R : forall ax n p, In (ax, n) S -> dget i ax = Some p -> p < n).
  { intros ax n p Hn Hp. apply (proj2 P ax n p); auto. apply without_In. split; auto.
    assert (H : In ax (dkeys i)) by (apply dget_Some_key; eauto). rewrite K, dkeys_without in H.
    apply filter_In in H as [_ H]. now apply negb_true_iff, smem_false in H. }
  destruct (int_getitem a i W) as (r & Gr & Wr & Ax & Sr & Vr).
  { rewrite K. now apply without_nodup. }
  { now rewrite E. }
  exists r. split; auto. split; auto.
  assert (A1 : s_axes r = taken S L).
  { rewrite Ax. rewrite <- (wf_keys a W), E. unfold taken. apply filter_ext_in. intros ax H. rewrite K.
    destruct (smem ax L) eqn:El.
    - apply negb_true_iff, smem_false. apply (taken_apart S L ax H). apply taken_In. split; auto. now apply smem_In.
    - apply negb_false_iff, smem_In. rewrite dkeys_without, filter_In. now rewrite El. }
  split; auto.
  assert (S1 : forall ax n, In (ax, n) (sshape r) <-> In (ax, n) S /\ In ax (taken S L)).
  { intros ax n. rewrite (Sr ax n), E, K. split; intros [H H']; (split; auto); apply (in_map fst) in H; apply (taken_apart S L ax H); auto. }
  split; auto. split; auto. intros e G.
  rewrite (ravel_fibre r e Wr), A1.
  rewrite (fibre_ext (sshape r) S (taken S L) e).
  2:{ intros ax H. assert (H' := H). apply taken_In in H' as [Hk _]. apply key_size in Hk as [n Hn].
      rewrite (size_of_In S ax n N Hn). apply size_of_In; [now apply wf_nodup|]. now apply S1. }
  apply map_ext_in. intros e' He'. destruct (fibre_inside _ _ _ _ He') as [F1 F2].
  rewrite Vr.
  - apply at_over. intros ax p Hp. rewrite F2; auto. intros H. assert (Hi : In ax (dkeys i)) by (apply dget_Some_key; eauto).
    rewrite K in Hi. assert (H' := H). apply taken_In in H' as [Hk _]. now apply (taken_apart S L ax Hk) in H.
  - intros ax n H. apply S1 in H as [Hn H]. specialize (F1 ax H). now rewrite (size_of_In S ax n) in F1.
Qed.

(** a loop that fills an array *)
Lemma fill_loop {A} (step : sarr A -> dict nat -> res (sarr A)) (T : shape) (Pos : dict nat -> Prop) (value : env -> A) :
  (forall result i, Pos i -> wf result -> sshape result = T ->
     exists r, step result i = Ok r /\ wf r /\ sshape r = T /\
       forall e, inside e T -> at_ r e = value e \/ (~ agrees i e /\ at_ r e = at_ result e)) ->
  forall l, (forall i, In i l -> Pos i) -> forall result, wf result -> sshape result = T ->
  exists r, foldM step l result = Ok r /\ wf r /\ sshape r = T /\
    forall e, inside e T -> at_ result e = value e \/ (exists i, In i l /\ agrees i e) -> at_ r e = value e.
Proof.
  intros H l. induction l as [|i l IH]; intros P result Wr Sr.
  - exists result. simpl. do 3 (split; auto). intros e _ [X|(i & [] & _)]; auto.
  - destruct (H result i (P i (or_introl eq_refl)) Wr Sr) as (r & Er & Wr1 & Sr1 & Vr1).
    simpl. rewrite Er. cbn [bind].
    destruct (IH (fun j Hj => P j (or_intror Hj)) r Wr1 Sr1) as (r' & Er' & Wr' & Sr' & Vr').
    exists r'. do 3 (split; auto). intros e He X. apply Vr'; auto.
    destruct (Vr1 e He) as [V|[NG V]]; auto. destruct X as [X|(j & [<- |Hj] & G)].
    + left. congruence.
    + contradiction.
    + right. eauto.
Qed.
