(** Facts about the names of the terms of a polynomial. *)
From Coq Require Import Ascii String List Arith ZArith Bool Lia Permutation.
From Verif Require Import Base Numpy Shapes Scalar Vector Matrix Poly Spec SpecPoly PolyFacts.
Import ListNotations.
Open Scope nat_scope.
Open Scope list_scope.

Definition from (i : nat) : list string -> list (list string) :=
  fix from (l : list string) : list (list string) :=
    match l with
    | [] => []
    | x :: l' => map (cons x) (combinations i l) ++ from l'
    end.

Lemma combinations_S i l : combinations (S i) l = from i l.
Proof. reflexivity. Qed.

Lemma from_cons i x l : from i (x :: l) = map (cons x) (combinations i (x :: l)) ++ from i l.
Proof. reflexivity. Qed.

Lemma combinations_sound i : forall l c, In c (combinations i l) -> length c = i /\ incl c l.
Proof.
  induction i as [|i IH]; intros l c H.
  - destruct H as [<- |[]]. split; [reflexivity|intros ? []].
  - rewrite combinations_S in H. induction l as [|x l IHl]; [destruct H|]. rewrite from_cons in H. apply in_app_or in H. destruct H as [H|H].
    + apply in_map_iff in H. destruct H as (c' & <- & H). apply IH in H. destruct H as [L I]. split; [simpl; lia|].
      intros z [<- |Hz]; [now left|now apply I].
    + destruct (IHl H) as [L I]. split; [exact L|]. intros z Hz. right. now apply I.
Qed.

Lemma combinations_complete i : forall comps l, incl l comps -> length l = i -> exists c, In c (combinations i comps) /\ Permutation l c.
Proof.
  induction i as [|i IH]; intros comps l I L.
  - destruct l; [|discriminate]. exists []. split; [now left|constructor].
  - rewrite combinations_S. induction comps as [|x comps IHc].
    + destruct l as [|y l]; [discriminate|]. destruct (I y (or_introl eq_refl)).
    + rewrite from_cons. destruct (in_dec string_dec x l) as [Hx|Hx].
      * apply in_split in Hx. destruct Hx as (l1 & l2 & ->). destruct (IH (x :: comps) (l1 ++ l2)) as (c & Hc & Pc).
        { intros z Hz. apply I. apply in_app_or in Hz. apply in_or_app. destruct Hz; [now left|right; now right]. }
        { rewrite app_length in L |- *. simpl in L. lia. }
        exists (x :: c). split; [apply in_or_app; left; now apply in_map|]. rewrite <- Permutation_middle. now constructor.
      * destruct IHc as (c & Hc & Pc).
        { intros z Hz. destruct (I z Hz) as [<- |H]; [contradiction|exact H]. }
        exists c. split; [apply in_or_app; now right|exact Pc].
Qed.

Lemma from_sound i l c : In c (from i l) -> length c = S i /\ incl c l.
Proof. rewrite <- combinations_S. apply combinations_sound. Qed.

Lemma combinations_unique i : forall comps c c', NoDup comps -> In c (combinations i comps) -> In c' (combinations i comps) ->
  Permutation c c' -> c = c'.
Proof.
  induction i as [|i IH]; intros comps c c' N H H' P.
  - destruct H as [<- |[]], H' as [<- |[]]. reflexivity.
  - rewrite combinations_S in H, H'. induction comps as [|x comps IHc]; [destruct H|]. inversion N; subst.
    rewrite from_cons in H, H'. apply in_app_or in H, H'. destruct H as [H|H], H' as [H'|H'].
    + apply in_map_iff in H, H'. destruct H as (d & <- & H), H' as (d' & <- & H'). f_equal. apply (IH (x :: comps)); auto.
      now apply Permutation_cons_inv in P.
    + exfalso. apply in_map_iff in H. destruct H as (d & <- & H). apply from_sound in H'. destruct H' as [_ H']. apply H2, H'.
      apply (Permutation_in x P). now left.
    + exfalso. apply in_map_iff in H'. destruct H' as (d & <- & H'). apply from_sound in H. destruct H as [_ H]. apply H2, H.
      apply (Permutation_in x (Permutation_sym P)). now left.
    + now apply IHc.
Qed.

Lemma nodup_append {A} (l m : list A) : NoDup l -> NoDup m -> (forall x, In x l -> ~ In x m) -> NoDup (l ++ m).
Proof.
  induction l as [|x l IH]; intros Nl Nm D; [exact Nm|]. inversion Nl; subst. cbn [app]. constructor.
  - intros H. apply in_app_or in H. destruct H as [H|H]; [contradiction|]. apply (D x); [now left|exact H].
  - apply IH; auto. intros y Hy. apply D. now right.
Qed.

Lemma nodup_map_inj {A B} (f : A -> B) l : NoDup l -> (forall x y, In x l -> In y l -> f x = f y -> x = y) -> NoDup (map f l).
Proof.
  induction l as [|x l IH]; intros N H; [constructor|]. inversion N; subst. cbn [map]. constructor.
  - intros I. apply in_map_iff in I. destruct I as (y & E & Hy). apply H in E; [subst; contradiction|now right|now left].
  - apply IH; auto. intros y z Hy Hz. apply H; now right.
Qed.

Lemma combinations_nodup i : forall comps, NoDup comps -> NoDup (combinations i comps).
Proof.
  induction i as [|i IH]; intros comps N; [repeat constructor; intros []|].
  rewrite combinations_S. induction comps as [|x comps IHc]; [constructor|]. rewrite from_cons. inversion N; subst.
  apply nodup_append; [|now apply IHc|].
  - apply nodup_map_inj; [now apply IH|]. intros c d _ _ E. congruence.
  - intros c Hc Hd. apply in_map_iff in Hc. destruct Hc as (d & <- & _). apply from_sound in Hd. apply H1, Hd. now left.
Qed.

Section Names.
Variables (comps : list string) (degree : nat).
Hypothesis N : NoDup comps.
Hypothesis Pl : Forall (fun c => star_free c /\ c <> ""%string) comps.

Lemma concat_empty l : incl l comps -> String.concat "*" l = ""%string -> l = [].
Proof.
  intros I E. destruct l as [|c [|c' l]]; [reflexivity| |].
  - cbn in E. subst c. rewrite Forall_forall in Pl. destruct (Pl "" (I _ (or_introl eq_refl)))%string. congruence.
  - rewrite concat_cons in E. destruct c as [|a c]; [|discriminate]. rewrite Forall_forall in Pl.
    destruct (Pl "" (I _ (or_introl eq_refl)))%string. congruence.
Qed.

Lemma concat_factors l : incl l comps -> factors (String.concat "*" l) l.
Proof.
  intros I. split; [|split; [reflexivity|]].
  - apply Forall_forall. intros c Hc. rewrite Forall_forall in Pl. apply Pl, I, Hc.
  - split; [now apply concat_empty|]. now intros ->.
Qed.

Lemma degree_name n : In n (degree_names comps degree) <->
  exists c, n = String.concat "*" c /\ length c <= degree /\ In c (combinations (length c) comps).
Proof.
  unfold degree_names. rewrite in_flat_map. split.
  - intros (i & Hi & H). apply in_seq in Hi. apply in_map_iff in H. destruct H as (c & <- & H).
    destruct (combinations_sound i comps c H) as [L _]. exists c. rewrite L. split; [reflexivity|]. split; [lia|exact H].
  - intros (c & -> & L & H). exists (length c). split; [apply in_seq; lia|]. now apply in_map.
Qed.

Theorem names_sound n : In n (degree_names comps degree) -> exists l, factors n l /\ incl l comps /\ length l <= degree.
Proof.
  intros H. apply degree_name in H. destruct H as (c & -> & L & H). destruct (combinations_sound _ _ _ H) as [_ I].
  exists c. split; [now apply concat_factors|]. auto.
Qed.

Theorem names_complete l : incl l comps -> length l <= degree ->
  exists n l', In n (degree_names comps degree) /\ factors n l' /\ Permutation l l'.
Proof.
  intros I L. destruct (combinations_complete (length l) comps l I eq_refl) as (c & Hc & Pc).
  destruct (combinations_sound _ _ _ Hc) as [Lc Ic]. exists (String.concat "*" c), c.
  split; [|split; [now apply concat_factors|exact Pc]]. apply degree_name. exists c. rewrite Lc. auto.
Qed.

Theorem names_unique n n' l l' : In n (degree_names comps degree) -> In n' (degree_names comps degree) ->
  factors n l -> factors n' l' -> Permutation l l' -> n = n'.
Proof.
  intros H H' Fl Fl' P. apply degree_name in H, H'. destruct H as (c & -> & L & H), H' as (c' & -> & L' & H').
  destruct (combinations_sound _ _ _ H) as [_ I], (combinations_sound _ _ _ H') as [_ I'].
  assert (l = c) by (eapply factors_unique; [exact Fl|now apply concat_factors]).
  assert (l' = c') by (eapply factors_unique; [exact Fl'|now apply concat_factors]). subst l l'. f_equal.
  apply (combinations_unique (length c) comps); auto. now rewrite (Permutation_length P).
Qed.

Theorem names_nodup : NoDup (degree_names comps degree).
Proof.
  unfold degree_names. assert (G : forall k m, NoDup (flat_map (fun i => map (String.concat "*") (combinations i comps)) (seq m k))).
  { induction k as [|k IH]; intros m; [constructor|]. cbn [seq flat_map]. apply nodup_append; [|apply IH|].
    - apply nodup_map_inj; [now apply combinations_nodup|]. intros c d Hc Hd E.
      destruct (combinations_sound _ _ _ Hc) as [_ I], (combinations_sound _ _ _ Hd) as [_ I'].
      apply (factors_unique (String.concat "*" c)); [now apply concat_factors|]. rewrite E. now apply concat_factors.
    - intros n H H'. apply in_map_iff in H. destruct H as (c & <- & H). apply in_flat_map in H'. destruct H' as (i & Hi & H').
      apply in_seq in Hi. apply in_map_iff in H'. destruct H' as (d & E & H').
      destruct (combinations_sound _ _ _ H) as [L I], (combinations_sound _ _ _ H') as [L' I'].
      assert (c = d); [|subst; lia]. apply (factors_unique (String.concat "*" c)); [now apply concat_factors|]. rewrite <- E. now apply concat_factors. }
  apply G.
Qed.
End Names.
