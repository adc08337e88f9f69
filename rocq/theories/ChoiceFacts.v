(** Proofs about the model of [na.random.choice]. *)
From Coq Require Import String List Arith ZArith Bool Lia QArith Qcanon.
From Verif Require Import Base BaseFacts Numpy NumpyFacts Shapes ShapesFacts Scalar Elementwise Derived Interp Hist Choice
  Spec SpecNumeric SpecHist SpecInterp SpecChoice AlignFacts GetitemFacts SetitemFacts ElementwiseFacts ReduceFacts SortingFacts
  AlongFacts RankdataFacts RegridFacts ReorderFacts PdfFacts UncertainIndexFacts HistFacts InterpAxisFacts LoopFacts.
From Verif Require InterpFacts VectorIndexFacts.
Import ListNotations.
Open Scope nat_scope.
Open Scope list_scope.

Lemma list_sum_qsum l : list_sum l = qsum l.
Proof. reflexivity. Qed.

Lemma nonzero_iff w : nonzero w = true <-> w <> 0%Qc.
Proof.
  unfold nonzero. rewrite negb_true_iff. split.
  - intros H E. subst. rewrite <- not_true_iff_false in H. apply H. unfold Qc_eq_bool. destruct (Qc_eq_dec 0 0); auto.
  - intros H. unfold Qc_eq_bool. destruct (Qc_eq_dec w 0); auto. contradiction.
Qed.

Lemma qsum_scale l s : qsum (map (fun w => (w / s)%Qc) l) = (qsum l / s)%Qc.
Proof.
  unfold qsum. induction l as [|w l IH]; simpl; [|rewrite IH]; change (qint 0) with 0%Qc; unfold Qcdiv; ring.
Qed.

Lemma scale_nonzero w s : s <> 0%Qc -> (w / s = 0 <-> w = 0)%Qc.
Proof.
  intros H. split; intros E; [|subst; unfold Qcdiv; ring].
  transitivity (w / s * s)%Qc; [field; auto|rewrite E; ring].
Qed.

Lemma scale_nonneg w s : (0 < s)%Qc -> (0 <= w)%Qc -> (0 <= w / s)%Qc.
Proof.
  intros Hs Hw. apply Qcnot_lt_le. intros L.
  assert (X : (w / s * s < 0 * s)%Qc) by (apply Qcmult_lt_compat_r; auto).
  assert (E : (w / s * s = w)%Qc).
  { field. intros E. rewrite E in Hs. now apply Qclt_not_eq in Hs. }
  rewrite E in X. replace (0 * s)%Qc with 0%Qc in X by ring. now apply Qcle_not_lt in Hw.
Qed.

Lemma filter_map_length {X Y} (f : X -> Y) (P : Y -> bool) l : length (filter P (map f l)) = length (filter (fun x => P (f x)) l).
Proof. induction l as [|x l IH]; simpl; auto. destruct (P (f x)); simpl; auto. Qed.

Lemma filter_len {X} (P : X -> bool) l : length (filter P l) <= length l.
Proof. induction l as [|x l IH]; simpl; auto. destruct (P x); simpl; lia. Qed.

Definition dict_dec : forall i j : dict nat, {i = j} + {i <> j}.
Proof. apply list_eq_dec. intros x y. decide equality; [apply Nat.eq_dec|apply string_dec]. Defined.

Section Choice.
Context {A B G : Type} (draw : drawing G) (cast : A -> B) (junk : A).
Hypothesis (Law : lawful draw).
Variable (a : sarr A) (p : option (sarr Qc)) (S : shape) (L : list string) (replace : bool) (R T : shape).
Let O := without S L.
Let K := taken S L.
Let F := free R O.
Hypothesis (NS : NoDup (dkeys S)) (NR : NoDup (dkeys R)).
Hypothesis (Wa : wf a) (Sa : sshape a = S) (Wp : forall w, p = Some w -> wf w /\ sshape w = S).
Hypothesis (ET : broadcast_shapes [R; O] = Ok T).
Hypothesis (RO : forall k n m, In (k, n) R -> In (k, m) O -> n = 1 \/ n = m).

Definition wt (e : env) : Qc := match p with Some w => at_ w e | None => 1%Qc end.

Lemma NO : NoDup (dkeys O).
Proof. now apply without_nodup. Qed.

Lemma NF : NoDup (dkeys F).
Proof. now apply without_nodup. Qed.

Lemma two : Forall (fun s : shape => NoDup (dkeys s)) [R; O].
Proof. apply two_nodup; auto. apply NO. Qed.

Lemma result_shape : NoDup (dkeys T) /\ forall k n, In (k, n) T <-> In (k, n) O \/ In (k, n) F.
Proof.
  assert (Tw := two). destruct (broadcast_shapes_ok _ _ Tw ET) as (NT & _). split; auto.
  assert (OT : forall k n, In (k, n) O -> In (k, n) T).
  { intros k n H. destruct (VectorIndexFacts.broadcast_covers _ _ O k n Tw ET (or_intror (or_introl eq_refl)) H) as [Hk [-> |D]]; auto.
    apply key_size in Hk as [m Hm]. destruct (VectorIndexFacts.broadcast_attained _ _ k m Tw ET Hm) as (s & [<- |[<- |[]]] & Hs).
    - destruct (RO k m 1 Hs H) as [-> | ->]; auto.
    - now rewrite (entry_eq O k 1 m NO H Hs). }
  intros k n. split.
  - intros H. destruct (VectorIndexFacts.broadcast_attained _ _ k n Tw ET H) as (s & [<- |[<- |[]]] & Hs); auto.
    destruct (in_dec string_dec k (dkeys O)) as [Hk|Hk].
    + left. apply key_size in Hk as [m Hm]. now rewrite (entry_eq T k n m NT H (OT _ _ Hm)).
    + right. apply without_In. auto.
  - intros [H|H]; auto. apply without_In in H as [H Hk].
    destruct (VectorIndexFacts.broadcast_covers _ _ R k n Tw ET (or_introl eq_refl) H) as [H' [-> |D]]; auto.
    apply key_size in H' as [m Hm]. destruct (VectorIndexFacts.broadcast_attained _ _ k m Tw ET Hm) as (s & [<- |[<- |[]]] & Hs).
    + now rewrite (entry_eq R k 1 m NR H Hs).
    + exfalso. apply Hk. now apply (in_map fst) in Hs.
Qed.

Lemma inside_free e : inside e T -> inb (map e (dkeys F)) (dvals F).
Proof.
  intros I. assert (H : forall k n, In (k, n) F -> e k < n).
  { intros k n H. apply I. apply result_shape. auto. }
  clear - H. induction F as [|[k n] l IH]; simpl; constructor; [apply H; simpl; auto|apply IH; intros; apply H; simpl; auto].
Qed.

Lemma inside_orth e : inside e T -> inside e O.
Proof. intros I k n H. apply I. apply result_shape. auto. Qed.

(** the choices made at one position *)
Definition made (i : dict nat) (s : list nat -> nat) : Prop :=
  (forall e idx, agrees i e -> inb idx (dvals F) ->
     s idx < length (fibre S K e) /\ nth (s idx) (map wt (fibre S K e)) 0%Qc <> 0%Qc) /\
  (replace = false -> forall idx idx', inb idx (dvals F) -> inb idx' (dvals F) -> s idx = s idx' -> idx = idx').

Lemma probabilities_ok i : pos O i -> exists l, probabilities p i = Ok l /\
  (p = None -> l = None) /\
  forall e, agrees i e -> p <> None -> l = Some (map (fun e' => (wt e' / qsum (map wt (fibre S K e)))%Qc) (fibre S K e)).
Proof.
  intros P. unfold probabilities, wt. destruct p as [w|] eqn:Ep; [|exists None; split; auto; split; auto; intros; contradiction].
  destruct (Wp w eq_refl) as [Ww Sw]. destruct (part_fibre w S L i Ww Sw P) as (r & Gr & _ & _ & _ & _ & V).
  rewrite Gr. cbn [bind]. eexists. split; [reflexivity|]. split; [discriminate|]. intros e Ge _.
  rewrite (V e Ge), list_sum_qsum, map_map. reflexivity.
Qed.

Lemma np_total g (l : list A) size q :
  np_choice draw junk g l size replace q = Err ValueError \/
  exists f g', np_choice draw junk g l size replace q = Ok (mkNd size f, g').
Proof.
  unfold np_choice. destruct (_ && _); auto. destruct (match q with Some _ => _ | None => _ end); auto.
  destruct (_ && _); auto. destruct (_ && _); auto. destruct (draw g (length l) q replace size) as [s g']. eauto.
Qed.

Lemma write_ok i result (f : list nat -> B) : pos O i -> wf result -> sshape result = T ->
  exists r, (v <- mk_sarr (mkNd (dvals F) f) (dkeys F) ;; setitem result (int_items i) (OpArr v)) = Ok r /\ wf r /\ sshape r = T /\
    forall e, inside e T -> (agrees i e /\ at_ r e = f (map e (dkeys F))) \/ (~ agrees i e /\ at_ r e = at_ result e).
Proof.
  intros P Wr Sr. assert (Ki : dkeys i = dkeys O) by apply P. set (v := mkNd (dvals F) f).
  assert (Wv : wf (mkS v (dkeys F))).
  { split; [apply NF|]. unfold v, dkeys, dvals. simpl. now rewrite !map_length. }
  assert (Ev : mk_sarr v (dkeys F) = Ok (mkS v (dkeys F))) by (apply mk_sarr_intro; apply Wv).
  rewrite Ev. cbn [bind].
  assert (Sv : sshape (mkS v (dkeys F)) = F).
  { unfold sshape, v. simpl. apply combine_dkeys_dvals. }
  destruct result_shape as [NT ST].
  destruct (int_setitem result (mkS v (dkeys F)) i Wr Wv) as (r & Er & Wr' & Sr' & Vr).
  { rewrite Ki. apply NO. }
  { intros ax H. rewrite <- wf_keys, Sr by auto. rewrite Ki in H. apply key_size in H as [n H].
    apply (in_map fst T (ax, n)). apply ST. auto. }
  { intros ax n q Hn Hq. rewrite Sr in Hn. assert (H : In ax (dkeys O)) by (rewrite <- Ki; apply dget_Some_key; eauto).
    apply key_size in H as [m Hm]. rewrite (entry_eq T ax n m NT Hn) by (apply ST; auto). apply (proj2 P ax m q); auto. }
  { intros ax n. rewrite Sv, Sr, Ki, (ST ax n). split.
    - intros H. split; auto. now apply without_In in H.
    - intros [[H|H] D]; auto. exfalso. apply D. now apply (in_map fst) in H. }
  exists r. split; auto. split; auto. split; [congruence|]. intros e He. rewrite <- Sr in He. destruct (Vr e He) as [[Ge Ve]|Ve]; auto.
Qed.

Lemma step_write i result g x l c g' f : pos O i -> wf result -> sshape result = T ->
  probabilities p i = Ok l -> getitem a (int_items i) = Ok x ->
  np_choice draw junk g (ravel (s_nd x)) (dvals F) replace l = Ok (c, g') -> c = mkNd (dvals F) f ->
  exists r, choice_step draw cast junk a p replace F (result, g) i = Ok (r, g') /\ wf r /\ sshape r = T /\
    forall e, inside e T -> (agrees i e /\ at_ r e = cast (f (map e (dkeys F)))) \/ (~ agrees i e /\ at_ r e = at_ result e).
Proof.
  intros P Wr Sr El Gx Ec ->. destruct (write_ok i result (fun idx => cast (f idx)) P Wr Sr) as (r & Er & Wr' & Sr' & V).
  exists r. split; auto. unfold choice_step. cbn [fst snd]. rewrite El, Gx. cbn [bind]. rewrite Ec. cbn [bind fst snd nshape nget].
  destruct (mk_sarr _ _) as [v|] in Er |- *; [|discriminate]. cbn [bind] in Er |- *. now rewrite Er.
Qed.

Lemma step_total i result g : pos O i -> wf result -> sshape result = T ->
  choice_step draw cast junk a p replace F (result, g) i = Err ValueError \/
  exists r g', choice_step draw cast junk a p replace F (result, g) i = Ok (r, g') /\ wf r /\ sshape r = T.
Proof.
  intros P Wr Sr. destruct (part_fibre a S L i Wa Sa P) as (x & Gx & _).
  destruct (probabilities_ok i P) as (l & El & _).
  destruct (np_total g (ravel (s_nd x)) (dvals F) l) as [Ec|(f & g' & Ec)].
  - left. unfold choice_step. cbn [fst snd]. rewrite El, Gx. cbn [bind]. now rewrite Ec.
  - right. destruct (step_write i result g x l _ g' f P Wr Sr El Gx Ec eq_refl) as (r & Er & W1 & S1 & _). eauto.
Qed.

Lemma scale_neg w s : (0 < s)%Qc -> (w < 0)%Qc -> (w / s < 0)%Qc.
Proof.
  intros Hs Hw. apply Qcnot_le_lt. intros H.
  assert (X : (0 * s <= w / s * s)%Qc) by (apply Qcmult_le_compat_r; auto; now apply Qclt_le_weak).
  assert (E : (w / s * s = w)%Qc).
  { field. intros E. rewrite E in Hs. now apply Qclt_not_eq in Hs. }
  rewrite E in X. replace (0 * s)%Qc with 0%Qc in X by ring. now apply Qcle_not_lt in X.
Qed.

Definition impossible (e : env) : Prop :=
  (prod (dvals F) <> 0 /\ fibre S K e = []) \/
  (p <> None /\ qsum (map wt (fibre S K e)) = 0%Qc) \/
  (p <> None /\ (0 < qsum (map wt (fibre S K e)))%Qc /\ exists e', In e' (fibre S K e) /\ (wt e' < 0)%Qc) \/
  (replace = false /\ length (filter (fun e' => nonzero (wt e')) (fibre S K e)) < prod (dvals F)).

Lemma filter_all_len {X} (P : X -> bool) (Q : X -> bool) l : (forall x, P x = true -> Q x = true) ->
  length (filter P l) <= length (filter Q l).
Proof.
  intros H. induction l as [|x l IH]; simpl; auto. destruct (P x) eqn:E; [rewrite (H x E); simpl; lia|].
  destruct (Q x); simpl; lia.
Qed.

Lemma step_refused i result g e : pos O i -> agrees i e -> impossible e ->
  choice_step draw cast junk a p replace F (result, g) i = Err ValueError.
Proof.
  intros P Ge H. destruct (part_fibre a S L i Wa Sa P) as (x & Gx & _ & _ & _ & _ & V).
  destruct (probabilities_ok i P) as (l & El & L0 & L1).
  unfold choice_step. cbn [fst snd]. rewrite El, Gx. cbn [bind].
  enough (E : np_choice draw junk g (ravel (s_nd x)) (dvals F) replace l = Err ValueError) by now rewrite E.
  unfold np_choice. rewrite (V e Ge), map_length. fold K.
  destruct (_ && _) eqn:E1; auto. destruct (match l with Some _ => _ | None => _ end) eqn:E2; auto.
  destruct (_ && _) eqn:E3 in |- *; auto. destruct (_ && _) eqn:E4 in |- *; auto. exfalso.
  destruct H as [[H1 H2]|[[H1 H2]|[(H1 & H2 & e' & H3 & H4)|[H1 H2]]]].
  - rewrite H2 in E1. simpl in E1. apply negb_false_iff, Nat.eqb_eq in E1. contradiction.
  - rewrite (L1 e Ge H1) in E2. apply orb_false_iff in E2 as [_ E2]. apply negb_false_iff, qc_eqb_eq in E2.
    rewrite list_sum_qsum, <- (map_map wt (fun w => (w / qsum (map wt (fibre S K e)))%Qc)), qsum_scale, H2 in E2. apply (f_equal this) in E2. vm_compute in E2. discriminate.
  - rewrite (L1 e Ge H1) in E2. apply orb_false_iff in E2 as [E2 _]. apply not_true_iff_false in E2. apply E2.
    apply existsb_exists. exists (wt e' / qsum (map wt (fibre S K e)))%Qc. split.
    + apply (in_map (fun e' => (wt e' / qsum (map wt (fibre S K e)))%Qc)). auto.
    + apply InterpFacts.qc_ltb_lt. now apply scale_neg.
  - rewrite H1 in E3, E4. simpl in E3, E4. destruct l as [q|].
    + assert (Hp : p <> None) by (intros E; assert (X := L0 E); discriminate).
      specialize (L1 e Ge Hp). injection L1 as ->. apply Nat.ltb_ge in E4. rewrite filter_map_length in E4.
      assert (length (filter (fun e' => qc_ltb (qz 0) (wt e' / qsum (map wt (fibre S K e)))%Qc) (fibre S K e))
              <= length (filter (fun e' => nonzero (wt e')) (fibre S K e))); [|lia].
      apply filter_all_len. intros y Hy. apply nonzero_iff. intros E. apply InterpFacts.qc_ltb_lt in Hy. rewrite E in Hy.
      unfold Qcdiv in Hy. change (qz 0) with 0%Qc in Hy. replace (0 * / qsum (map wt (fibre S K e)))%Qc with 0%Qc in Hy by ring.
      now apply Qclt_not_eq in Hy.
    + apply Nat.ltb_ge in E3.
      assert (Hp : p = None).
      { destruct p as [w|]; auto. specialize (L1 e Ge ltac:(discriminate)). discriminate. }
      rewrite filter_all in H2; [lia|]. intros y _. apply nonzero_iff. unfold wt. rewrite Hp. intros X. apply (f_equal this) in X. vm_compute in X. discriminate.
Qed.

Lemma loop_refused l e : inside e O -> impossible e -> (forall i, In i l -> pos O i) -> (exists i, In i l /\ agrees i e) ->
  forall result g, wf result -> sshape result = T -> foldM (choice_step draw cast junk a p replace F) l (result, g) = Err ValueError.
Proof.
  intros He Hi. induction l as [|i l IH]; intros P (j & Hj & Gj) result g Wr Sr; [contradiction|]. cbn [foldM].
  destruct (step_total i result g (P i (or_introl eq_refl)) Wr Sr) as [E|(r & g' & E & W1 & S1)]; rewrite E; auto. cbn [bind].
  destruct Hj as [-> |Hj].
  - rewrite (step_refused j result g e) in E; auto; [discriminate|apply P; simpl; auto].
  - apply IH; auto; [intros k Hk; apply P; simpl; auto|eauto].
Qed.

Hypothesis (Ok1 : forall e, inside e O ->
  (forall e', In e' (fibre S K e) -> (0 <= wt e')%Qc) /\
  (p <> None -> (0 < qsum (map wt (fibre S K e)))%Qc) /\
  (prod (dvals F) <> 0 -> fibre S K e <> []) /\
  (replace = false -> prod (dvals F) <= length (filter (fun e' => nonzero (wt e')) (fibre S K e)))).

Lemma np_ok i g : pos O i -> exists r l s g', getitem a (int_items i) = Ok r /\ probabilities p i = Ok l /\
  np_choice draw junk g (ravel (s_nd r)) (dvals F) replace l
  = Ok (mkNd (dvals F) (fun idx => nth (s idx) (ravel (s_nd r)) junk), g') /\
  made i s /\ forall e, agrees i e -> ravel (s_nd r) = map (at_ a) (fibre S K e).
Proof.
  intros P. destruct (part_fibre a S L i Wa Sa P) as (r & Gr & _ & _ & _ & _ & V).
  destruct (probabilities_ok i P) as (l & El & L0 & L1). exists r, l.
  assert (Len : forall e, agrees i e -> length (ravel (s_nd r)) = length (fibre S K e)).
  { intros e Ge. now rewrite (V e Ge), map_length. }
  set (e0 := over i (fun _ => 0)). assert (G0 : agrees i e0) by apply pos_agrees_over.
  destruct (Ok1 e0 (pos_inside O i e0 NO P G0)) as (Q1 & Q2 & Q3 & Q4).
  set (n := length (ravel (s_nd r))). set (sum := qsum (map wt (fibre S K e0))).
  assert (Psum : p <> None -> sum <> 0%Qc).
  { intros H E. specialize (Q2 H). fold sum in Q2. rewrite E in Q2. now apply Qclt_not_eq in Q2. }
  assert (C1 : prod (dvals F) = 0 \/ n <> 0).
  { destruct (Nat.eq_dec (prod (dvals F)) 0) as [E|D]; auto. right. unfold n. rewrite (Len e0 G0).
    specialize (Q3 D). destruct (fibre S K e0); [contradiction|discriminate]. }
  assert (C2 : forall x, l = Some x -> length x = n /\ (forall w, In w x -> (0 <= w)%Qc) /\ qsum x = 1%Qc).
  { intros x Ex. assert (Hp : p <> None) by (intros E; rewrite (L0 E) in Ex; discriminate).
    rewrite (L1 e0 G0 Hp) in Ex. injection Ex as <-. fold sum. split; [|split].
    - rewrite map_length. unfold n. now rewrite (Len e0 G0).
    - intros w H. apply in_map_iff in H as (e' & <- & H). apply scale_nonneg; auto.
    - rewrite <- (map_map wt (fun w => (w / sum)%Qc)). rewrite qsum_scale. fold sum. field. auto. }
  assert (Cnt : forall x, l = Some x -> length (filter nonzero x) = length (filter (fun e' => nonzero (wt e')) (fibre S K e0))).
  { intros x Ex. assert (Hp : p <> None) by (intros E; rewrite (L0 E) in Ex; discriminate).
    rewrite (L1 e0 G0 Hp) in Ex. injection Ex as <-. fold sum. rewrite filter_map_length. f_equal. apply filter_ext. intros e'.
    apply eq_true_iff_eq. rewrite !nonzero_iff, scale_nonzero; auto. reflexivity. }
  assert (C3 : replace = false -> prod (dvals F) <= match l with Some x => length (filter nonzero x) | None => n end).
  { intros Hr. destruct l as [x|]; [rewrite (Cnt x eq_refl); auto|]. unfold n. rewrite (Len e0 G0).
    eapply Nat.le_trans; [apply Q4; auto|]. apply filter_len. }
  destruct (Law g n l replace (dvals F) C1 C2 C3) as [D1 D2].
  destruct (draw g n l replace (dvals F)) as [s g'] eqn:Ed. simpl in D1, D2. exists s, g'.
  split; auto. split; auto. split; [|split; auto].
  - unfold np_choice. fold n.
    destruct ((n =? 0) && negb (prod (dvals F) =? 0)) eqn:E1.
    { exfalso. apply andb_true_iff in E1 as [E1 E2]. apply Nat.eqb_eq in E1. apply negb_true_iff, Nat.eqb_neq in E2. tauto. }
    destruct (match l with Some l => existsb (fun w => qc_ltb w (qz 0)) l || negb (qc_eqb (list_sum l) (qz 1)) | None => false end) eqn:E2.
    { exfalso. destruct l as [x|]; [|discriminate]. destruct (C2 x eq_refl) as (_ & X1 & X2). apply orb_true_iff in E2 as [E2|E2].
      - apply existsb_exists in E2 as (w & H & E2). apply InterpFacts.qc_ltb_lt in E2. specialize (X1 w H). now apply Qcle_not_lt in X1.
      - apply negb_true_iff, not_true_iff_false in E2. apply E2. apply qc_eqb_eq. exact X2. }
    assert (Ln : replace = false -> prod (dvals F) <= n).
    { intros Hr. eapply Nat.le_trans; [exact (C3 Hr)|]. destruct l as [x|]; auto. destruct (C2 x eq_refl) as (<- & _). apply filter_len. }
    assert (E3 : negb replace && (n <? prod (dvals F)) = false).
    { destruct replace eqn:Er; auto. simpl. apply Nat.ltb_ge. auto. }
    rewrite E3.
    assert (E4 : negb replace && match l with
                 | Some l0 => length (filter (fun w => qc_ltb (qz 0) w) l0) <? prod (dvals F) | None => false end = false).
    { destruct replace eqn:Er; auto. simpl. destruct l as [x|]; auto. apply Nat.ltb_ge. specialize (C3 eq_refl). simpl in C3.
      eapply Nat.le_trans; [exact C3|]. apply Nat.eq_le_incl. f_equal. apply filter_ext_in. intros w Hw.
      apply eq_true_iff_eq. rewrite nonzero_iff, InterpFacts.qc_ltb_lt. destruct (C2 x eq_refl) as (_ & X1 & _). specialize (X1 w Hw).
      change (qz 0) with 0%Qc. split; intros H.
      - destruct (Qcle_lt_or_eq _ _ X1); auto. congruence.
      - intros E. rewrite E in H. now apply Qclt_not_eq in H. }
    rewrite E4, Ed. reflexivity.
  - split; auto. intros e idx Ge Hi. destruct (D1 idx Hi) as [X1 X2]. assert (X3 := X1). unfold n in X3. rewrite (Len e Ge) in X3. split; auto.
    destruct p as [w|] eqn:Ep.
    + assert (Hp : Some w <> None) by discriminate. specialize (X2 _ (L1 e Ge Hp)). intros E. apply X2.
      set (h := fun q => (q / qsum (map wt (fibre S K e)))%Qc).
      transitivity (nth (s idx) (map h (map wt (fibre S K e))) (h 0%Qc)).
      { rewrite map_map. apply nth_indep. now rewrite map_length. }
      rewrite map_nth, E. unfold h, Qcdiv. ring.
    + rewrite (nth_indep _ 0%Qc (wt e)) by now rewrite map_length. rewrite map_nth. unfold wt. rewrite Ep. discriminate.
Qed.

Lemma step_ok i result g : pos O i -> wf result -> sshape result = T ->
  exists r g' s, choice_step draw cast junk a p replace F (result, g) i = Ok (r, g') /\ wf r /\ sshape r = T /\ made i s /\
    forall e, inside e T ->
      (agrees i e /\ at_ r e = cast (nth (s (map e (dkeys F))) (map (at_ a) (fibre S K e)) junk)) \/
      (~ agrees i e /\ at_ r e = at_ result e).
Proof.
  intros P Wr Sr. destruct (np_ok i g P) as (x & l & s & g' & Gx & El & Ec & M & V).
  destruct (step_write i result g x l _ g' _ P Wr Sr El Gx Ec eq_refl) as (r & Er & W1 & S1 & Vr).
  exists r, g', s. do 4 (split; auto). intros e He. destruct (Vr e He) as [[Ge Ve]|Ve]; auto. left. split; auto.
  now rewrite Ve, (V e Ge).
Qed.

Lemma loop_ok l : (forall i, In i l -> pos O i) -> forall result g, wf result -> sshape result = T ->
  exists r g' sel, foldM (choice_step draw cast junk a p replace F) l (result, g) = Ok (r, g') /\ wf r /\ sshape r = T /\
    (forall i, In i l -> made i (sel i) /\ forall e, inside e T -> agrees i e ->
       at_ r e = cast (nth (sel i (map e (dkeys F))) (map (at_ a) (fibre S K e)) junk)) /\
    (forall e, inside e T -> (forall i, In i l -> ~ agrees i e) -> at_ r e = at_ result e).
Proof.
  induction l as [|i l IH]; intros P result g Wr Sr.
  - exists result, g, (fun _ _ => 0). simpl. do 3 (split; auto). split; auto. intros i [].
  - assert (Pi := P i (or_introl eq_refl)).
    destruct (step_ok i result g Pi Wr Sr) as (r1 & g1 & s & E1 & W1 & S1 & M1 & V1).
    cbn [foldM]. rewrite E1. cbn [bind].
    destruct (IH (fun j Hj => P j (or_intror Hj)) r1 g1 W1 S1) as (r & g' & sel & Er & Wr' & Sr' & V & U).
    exists r, g', (fun j => if dict_dec j i then if in_dec dict_dec i l then sel j else s else sel j).
    split; auto. split; auto. split; auto. split.
    + intros j Hj. destruct (dict_dec j i) as [E|D]; [|destruct Hj as [E|Hj]; [congruence|auto]]. subst j.
      destruct (in_dec dict_dec i l) as [Hi|Hi]; [auto|]. split; auto. intros e He Ge. rewrite U; auto.
      * destruct (V1 e He) as [[_ X]|[X _]]; [auto|contradiction].
      * intros j Hj1 Gj. apply Hi. rewrite (agrees_unique O i j e NO Pi (P j (or_intror Hj1)) Ge Gj). auto.
    + intros e He H. rewrite U; [|auto|intros j Hj; apply H; simpl; auto].
      destruct (V1 e He) as [[X _]|[_ X]]; auto. exfalso. apply (H i); simpl; auto.
Qed.

Lemma fibre_position e e' : NoDup K -> forall k k', k < length (fibre S K e) -> k' < length (fibre S K e') ->
  (forall ax, In ax K -> nth k (fibre S K e) e ax = nth k' (fibre S K e') e' ax) -> k = k'.
Proof.
  intros NK k k' Hk Hk' H.
  assert (E : forall e k, k < length (fibre S K e) -> map (nth k (fibre S K e) e) K = nth k (ndindex (map (size_of S) K)) []).
  { intros e1 k1 L1. assert (X := map_fibre S K e1 (fun e' => map e' K) (fun red => red) NK).
    rewrite map_id in X. rewrite <- X.
    - rewrite (nth_indep _ [] (map e1 K)) by now rewrite map_length. now rewrite (map_nth (fun e' : env => map e' K)).
    - intros e2 red Lr Ee. rewrite <- (map_env_of K red NK Lr). apply map_ext_in. intros x Hx. rewrite Ee.
      unfold env_of. destruct (smem x K) eqn:Ex; auto. apply smem_false in Ex. contradiction. }
  assert (X : map (nth k (fibre S K e) e) K = map (nth k' (fibre S K e') e') K) by (apply map_ext_in; auto).
  rewrite (E e k Hk), (E e' k' Hk') in X. rewrite fibre_length in Hk, Hk'.
  apply (proj1 (NoDup_nth (ndindex (map (size_of S) K)) []) (ndindex_NoDup _)); auto; now rewrite ndindex_length.
Qed.

Theorem core_ok empty g : exists r g',
  foldM (choice_step draw cast junk a p replace F) (na_ndindex S L) (mkS (mkNd (dvals T) (fun _ => empty)) (dkeys T), g) = Ok (r, g') /\
  wf r /\ sshape r = T /\ exists src : env -> env,
    (forall e, inside e T -> In (src e) (filter (fun e' => nonzero (wt e')) (fibre S K e)) /\ at_ r e = cast (at_ a (src e))) /\
    (replace = false -> forall e e', inside e T -> inside e' T -> (forall ax, In ax (dkeys O) -> e ax = e' ax) ->
       (forall ax, In ax K -> src e ax = src e' ax) -> forall ax, In ax (dkeys T) -> e ax = e' ax).
Proof.
  destruct result_shape as [NT ST].
  set (r0 := mkS (mkNd (dvals T) (fun _ => empty)) (dkeys T)).
  assert (W0 : wf r0) by (split; [exact NT|]; unfold r0, dkeys, dvals; simpl; now rewrite !map_length).
  assert (S0 : sshape r0 = T) by apply combine_dkeys_dvals.
  destruct (loop_ok (na_ndindex S L) (fun i H => ignored_pos S L i NS H) r0 g W0 S0) as (r & g' & sel & Er & Wr & Sr & V & _).
  exists r, g'. split; auto. split; auto. split; auto.
  set (num := fun e : env => sel (position_of O e) (map e (dkeys F))).
  exists (fun e => nth (num e) (fibre S K e) e).
  assert (Cov : forall e, inside e T -> In (position_of O e) (na_ndindex S L)).
  { intros e He. apply ignored_cover; auto. now apply inside_orth. }
  assert (Num : forall e, inside e T -> num e < length (fibre S K e) /\ nth (num e) (map wt (fibre S K e)) 0%Qc <> 0%Qc).
  { intros e He. destruct (V _ (Cov e He)) as [[M _] _]. apply M; [apply position_agrees|now apply inside_free]. }
  assert (NK : NoDup K) by now apply NoDup_filter.
  split.
  - intros e He. destruct (Num e He) as [H1 H2]. split.
    + apply filter_In. split; [now apply nth_In|]. apply nonzero_iff. intros E. apply H2.
      rewrite (nth_indep _ 0%Qc (wt e)) by now rewrite map_length. now rewrite map_nth.
    + destruct (V _ (Cov e He)) as [_ V']. rewrite (V' e He (position_agrees O e)). f_equal. fold (num e).
      rewrite (nth_indep _ junk (at_ a e)) by now rewrite map_length. now rewrite map_nth.
  - intros Hr e e' He He' EO ES ax Hax.
    assert (EP : position_of O e = position_of O e').
    { unfold position_of. apply map_ext_in. intros x Hx. now rewrite EO. }
    destruct (Num e He) as [H1 _]. destruct (Num e' He') as [H1' _].
    assert (EN := fibre_position e e' NK (num e) (num e') H1 H1' ES).
    destruct (V _ (Cov e He)) as [[_ Inj] _]. unfold num in EN. rewrite <- EP in EN.
    specialize (Inj Hr _ _ (inside_free e He) (inside_free e' He') EN).
    apply key_size in Hax as [n Hn]. apply ST in Hn as [Hn|Hn]; apply (in_map fst) in Hn; simpl in Hn; [now apply EO|].
    change (In ax (dkeys F)) in Hn. clear - Inj Hn. induction (dkeys F) as [|x l IH]; [contradiction|].
    simpl in Inj. injection Inj as E1 E2. destruct Hn as [<- |Hn]; auto.
Qed.
End Choice.

Lemma flattened_taken S axis : flattened S axis = taken S (match axis with Some l => l | None => dkeys S end).
Proof.
  destruct axis as [l|]; auto. simpl. symmetry. apply filter_all. intros x H. now apply smem_In.
Qed.

Section Top.
Context {A B G : Type} (draw : drawing G) (cast : A -> B) (junk : A) (empty : B) (g : G).
Variable (a : operand A) (p : option (operand Qc)) (axis : option (list string)) (replace : bool) (R S T : shape).
Hypothesis (Law : lawful draw) (Wa : op_wf a) (Wp : opt_operand_wf p) (NR : NoDup (dkeys R)).
Hypothesis (ES : broadcast_shapes (op_shape a :: opt_operand_shape p) = Ok S).
Let K := flattened S axis.
Let O := without S K.
Hypothesis (ET : broadcast_shapes [R; O] = Ok T).
Hypothesis (RO : forall k n m, In (k, n) R -> In (k, m) O -> n = 1 \/ n = m).
Let L := match axis with Some l => l | None => dkeys S end.

Lemma K_taken : K = taken S L.
Proof. apply flattened_taken. Qed.

Lemma O_without : O = without S L.
Proof.
  unfold O, without. apply filter_ext_in. intros [x n] H. f_equal. simpl. rewrite K_taken. apply eq_true_iff_eq.
  rewrite !smem_In, taken_In. apply (in_map fst) in H. simpl in H. unfold dkeys. tauto.
Qed.

Lemma top : NoDup (dkeys S) /\ exists b q, wf b /\ sshape b = S /\ (forall e, at_ b e = op_at a e) /\
  (forall w, q = Some w -> wf w /\ sshape w = S) /\ (q = None <-> p = None) /\ (forall e, wt q e = weight p e) /\
  na_random_choice draw cast junk empty g a p axis replace R
  = foldM (choice_step draw cast junk b q replace (free R O)) (na_ndindex S L) (mkS (mkNd (dvals T) (fun _ => empty)) (dkeys T), g).
Proof.
  assert (Wna := normalize_wf a Wa).
  assert (Fs : Forall (fun s : shape => NoDup (dkeys s)) (op_shape a :: opt_operand_shape p)).
  { constructor; [rewrite <- (normalize_shape a); now apply wf_nodup|]. destruct p as [w|]; simpl; [|constructor].
    constructor; [rewrite <- (normalize_shape w); apply wf_nodup, normalize_wf; now apply Wp|constructor]. }
  destruct (broadcast_shapes_ok _ _ Fs ES) as (NS & _). split; auto.
  assert (Ft := broadcast_fits _ _ Fs ES).
  destruct (fits_spread_any (normalize a) S Wna NS) as (b & Eb & Wb & Sb & Vb).
  { rewrite normalize_shape. apply Ft. simpl. auto. }
  assert (exists q, match option_map normalize p with
                    | Some p => b <- na_broadcast_to p S false ;; Ok (Some b)
                    | None => Ok None end = Ok q /\
                    (forall w, q = Some w -> wf w /\ sshape w = S) /\ (q = None <-> p = None) /\
                    forall e, wt q e = weight p e) as (q & Eq & Wq & Nq & Vq).
  { destruct p as [w|]; simpl.
    - destruct (fits_spread_any (normalize w) S) as (c & Ec & Wc & Sc & Vc); auto.
      { apply normalize_wf. now apply Wp. }
      { rewrite normalize_shape. apply Ft. simpl. auto. }
      rewrite Ec. exists (Some c). split; auto. split; [intros ? H; injection H as <-; auto|]. split; [split; discriminate|].
      intros e. simpl. rewrite Vc. apply normalize_at.
    - exists None. split; auto. split; [discriminate|]. split; tauto. }
  exists b, q. split; auto. split; auto. split; [intros e; rewrite Vb; apply normalize_at|]. do 3 (split; auto).
  unfold na_random_choice.
  assert (ES' : broadcast_shapes (sshape (normalize a) :: match option_map normalize p with Some p => [sshape p] | None => [] end) = Ok S).
  { rewrite <- ES. f_equal. f_equal; [apply normalize_shape|]. destruct p; simpl; auto. now rewrite normalize_shape. }
  rewrite ES'. cbn [bind]. rewrite Eb. cbn [bind]. rewrite Eq. cbn [bind].
  change (orthogonal S match axis with Some l => l | None => dkeys S end) with (without S L).
  rewrite <- O_without, ET. cbn [bind]. reflexivity.
Qed.

Theorem choice_ok :
  (forall e, inside e O -> drawable p S K replace (prod (dvals (free R O))) e) ->
  exists r g', na_random_choice draw cast junk empty g a p axis replace R = Ok (r, g') /\ wf r /\ sshape r = T /\
  exists src : env -> env,
    (forall e, inside e T -> In (src e) (candidates p S K e) /\ at_ r e = cast (op_at a (src e))) /\
    (replace = false -> forall e e', inside e T -> inside e' T -> (forall ax, In ax (dkeys O) -> e ax = e' ax) ->
       (forall ax, In ax K -> src e ax = src e' ax) -> forall ax, In ax (dkeys T) -> e ax = e' ax).
Proof.
  intros Dr. destruct top as (NS & b & q & Wb & Sb & Vb & Wq & Nq & Vq & E). rewrite E.
  assert (ET' := ET). assert (RO' := RO). assert (EO := O_without). assert (EK := K_taken).
  unfold O in *. unfold K in *. rewrite EO in *. rewrite EK in *.
  destruct (core_ok draw cast junk Law b q S L replace R T NS NR Wb Sb Wq ET' RO') with (empty := empty) (g := g)
    as (r & g' & Er & Wr & Sr & src & V1 & V2).
  { intros e He. destruct (Dr e He) as (D1 & D2 & D3 & D4). split; [|split; [|split; auto]].
    - intros e' H. rewrite Vq. auto.
    - intros H. rewrite (map_ext _ (weight p) Vq). apply D2. intros X. apply H. now apply Nq.
    - intros H. specialize (D4 H). unfold candidates in D4. erewrite filter_ext; [exact D4|]. intros e'. simpl. now rewrite Vq. }
  exists r, g'. split; auto. split; auto. split; auto. exists src. split; auto.
  intros e He. destruct (V1 e He) as [X1 X2]. split.
  - unfold candidates. erewrite filter_ext; [exact X1|]. intros e'. simpl. now rewrite Vq.
  - now rewrite X2, Vb.
Qed.

Theorem choice_refused e : inside e O -> undrawable p S K replace (prod (dvals (free R O))) e ->
  na_random_choice draw cast junk empty g a p axis replace R = Err ValueError.
Proof.
  intros He H. destruct top as (NS & b & q & Wb & Sb & Vb & Wq & Nq & Vq & E). rewrite E.
  assert (ET' := ET). assert (RO' := RO). assert (EO := O_without). assert (EK := K_taken).
  unfold O in *. unfold K in *. rewrite EO in *. rewrite EK in *.
  assert (Np : p <> None -> q <> None) by (intros X Y; apply X; now apply Nq).
  assert (NT : NoDup (dkeys T)).
  { eapply broadcast_shapes_ok; [|exact ET']. apply two_nodup; auto. now apply without_nodup. }
  apply (loop_refused draw cast junk b q S L replace R T NS NR Wb Sb Wq ET' RO' _ e); auto.
  - unfold impossible. unfold undrawable in H. rewrite (map_ext _ (weight p) Vq).
    destruct H as [H|[[H1 H2]|[(H1 & H2 & e' & H3 & H4)|[H1 H2]]]]; auto.
    + right. right. left. split; auto. split; auto. exists e'. rewrite Vq. auto.
    + right. right. right. split; auto. unfold candidates in H2. erewrite filter_ext; [exact H2|]. intros e'. simpl. now rewrite Vq.
  - intros i Hi. now apply ignored_pos.
  - exists (position_of (without S L) e). split; [now apply ignored_cover|apply position_agrees].
  - split; auto. unfold dkeys, dvals. simpl. now rewrite !map_length.
  - apply combine_dkeys_dvals.
Qed.
End Top.

(** ** Random numbers that follow the rules *)

Definition numbers (n : nat) (p : option (list Qc)) : list nat :=
  match p with Some l => filter (fun k => nonzero (nth k l 0%Qc)) (seq 0 n) | None => seq 0 n end.

(** the choices in order, again from the start when there are no more; the state
    counts the samples *)
Definition in_order : drawing nat := fun g n p _ size =>
  let l := numbers n p in (fun idx => nth (ravel_idx size idx mod length l) l 0, S g).

Lemma numbers_count l : length (numbers (length l) (Some l)) = length (filter nonzero l).
Proof.
  unfold numbers. rewrite <- (map_length (fun k => nth k l 0%Qc)).
  rewrite (filter_positions l (fun k => nonzero (nth k l 0%Qc)) nonzero _ (fun x => x)); [now rewrite map_id|].
  intros j x H. now rewrite (nth_error_nth _ _ 0%Qc H).
Qed.

Lemma in_order_lawful : lawful in_order.
Proof.
  intros g n p replace size H1 H2 H3. unfold in_order. simpl.
  assert (In1 : forall k, In k (numbers n p) -> k < n /\ forall l, p = Some l -> nth k l 0%Qc <> 0%Qc).
  { unfold numbers. destruct p as [l|]; intros k H.
    - apply filter_In in H as [H H']. apply in_seq in H. split; [lia|]. intros ? E. injection E as <-. now apply nonzero_iff.
    - apply in_seq in H. split; [lia|discriminate]. }
  assert (Lt : forall idx, inb idx size -> ravel_idx size idx < prod size) by (intros; now apply ravel_idx_lt).
  assert (Ne : forall idx, inb idx size -> length (numbers n p) <> 0).
  { intros idx Hi E. specialize (Lt idx Hi). destruct H1 as [H1|H1]; [lia|]. destruct p as [l|].
    - destruct (H2 l eq_refl) as (Hl & _ & Hs). rewrite <- Hl, numbers_count in E. apply length_zero_iff_nil in E.
      assert (Z : forall w, In w l -> w = 0%Qc).
      { intros w Hw. destruct (Qc_eq_dec w 0); auto. exfalso. assert (X : In w (filter nonzero l)) by (apply filter_In; split; auto; now apply nonzero_iff).
        rewrite E in X. contradiction. }
      assert (Z' : qsum l = 0%Qc) by (rewrite <- (map_id l); now apply qsum_zero).
      rewrite Z' in Hs. apply (f_equal this) in Hs. vm_compute in Hs. discriminate.
    - unfold numbers in E. rewrite seq_length in E. contradiction. }
  split.
  - intros idx Hi. apply In1. apply nth_In. apply Nat.mod_upper_bound. eauto.
  - intros Hr idx idx' Hi Hi' E. assert (Le : prod size <= length (numbers n p)).
    { specialize (H3 Hr). destruct p as [l|]; [destruct (H2 l eq_refl) as (<- & _); now rewrite numbers_count|].
      unfold numbers. now rewrite seq_length. }
    rewrite !Nat.mod_small in E by (eapply Nat.lt_le_trans; [apply Lt; auto|auto]).
    assert (ND : NoDup (numbers n p)) by (unfold numbers; destruct p; [apply NoDup_filter|]; apply seq_NoDup).
    assert (E' : ravel_idx size idx = ravel_idx size idx').
    { apply (proj1 (NoDup_nth _ 0) ND); auto; (eapply Nat.lt_le_trans; [apply Lt; auto|auto]). }
    rewrite <- (unravel_ravel size idx Hi), <- (unravel_ravel size idx' Hi'). now rewrite E'.
Qed.
