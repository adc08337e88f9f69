(** Facts about reductions. *)
From Coq Require Import String List Arith ZArith Bool Lia Permutation.
From Verif Require Import Base BaseFacts Numpy NumpyFacts Shapes Scalar Reorder Reduce Elementwise Spec
     ShapesFacts AlignFacts SetitemFacts ReorderFacts ElementwiseFacts.
Import ListNotations.
Open Scope nat_scope.
Open Scope list_scope.

Section Pick.
Context {X : Type}.

Lemma pick_map {Y} (b : bool) (g : X -> bool) (h : X -> Y) L :
  pick b (map g L) (map h L) = map h (filter (fun x => Bool.eqb (g x) b) L).
Proof. induction L as [|x L IH]; simpl; auto. destruct (Bool.eqb (g x) b); simpl; congruence. Qed.

Lemma merge_map (g : X -> bool) (e e' : X -> nat) L :
  merge_idx (map g L) (map e (filter (fun x => negb (g x)) L)) (map e' (filter g L)) =
  map (fun x => if g x then e' x else e x) L.
Proof. induction L as [|x L IH]; simpl; auto. destruct (g x); simpl; congruence. Qed.
End Pick.

Lemma eqb_true_filter {X} (g : X -> bool) L : filter (fun x => Bool.eqb (g x) true) L = filter g L.
Proof. apply filter_ext. intros x. now destruct (g x). Qed.

Lemma eqb_false_filter {X} (g : X -> bool) L : filter (fun x => Bool.eqb (g x) false) L = filter (fun x => negb (g x)) L.
Proof. apply filter_ext. intros x. now destruct (g x). Qed.

Lemma flags_named L S :
  NoDup L -> incl S L ->
  map (fun p => nmem p (map (fun ax => spos ax L) S)) (seq 0 (length L)) = map (fun ax => smem ax S) L.
Proof.
  intros N I. apply list_eq_nth with (d := false); [now rewrite !map_length, seq_length|].
  intros i Hi. rewrite map_length, seq_length in Hi.
  rewrite map_nth_in with (d := 0) by (now rewrite seq_length). rewrite seq_nth by auto.
  rewrite map_nth_in with (d := ""%string) by auto. simpl.
  apply eq_true_iff_eq. rewrite nmem_In, smem_In, in_map_iff. split.
  - intros [ax [<- Hax]]. rewrite nth_spos; auto.
  - intros H. exists (nth i L ""%string). split; auto. now apply spos_nth.
Qed.

Lemma nnodupb_spos L S : incl S L -> (nnodupb (map (fun ax => spos ax L) S) = true <-> NoDup S).
Proof.
  intros I. rewrite nnodupb_NoDup. split.
  - apply NoDup_map_inv.
  - intros N. now apply NoDup_map_spos.
Qed.

Lemma Forall2_weaken {X Y} (P Q : X -> Y -> Prop) l1 l2 :
  (forall x y, P x y -> Q x y) -> Forall2 P l1 l2 -> Forall2 Q l1 l2.
Proof. intros H. induction 1; constructor; auto. Qed.

(** ** The fibre *)

Lemma fibre_ndindex sh S e :
  NoDup S ->
  Forall2 (fun e' red => length red = length S /\ forall x, e' x = if smem x S then nth (spos x S) red 0 else e x)
          (fibre sh S e) (ndindex (map (size_of sh) S)).
Proof.
  revert e. induction S as [|ax S IH]; intros e N; simpl.
  - constructor; auto.
  - inversion N; subst. generalize (seq 0 (size_of sh ax)). intros l.
    induction l as [|i l IHl]; simpl; [constructor|]. apply Forall2_app; auto.
    clear IHl. apply Forall2_map_r. eapply Forall2_weaken; [|apply IH; auto].
    intros e' red [L E]. split; [simpl; auto|]. intros x. rewrite E. unfold smem. simpl. fold (smem x S).
    destruct (String.eqb_spec x ax) as [->|D]; simpl.
    + assert (smem ax S = false) by now apply smem_false. rewrite H. unfold set_env. now rewrite String.eqb_refl.
    + destruct (smem x S); auto. unfold set_env. destruct (String.eqb_spec x ax); congruence.
Qed.

Lemma map_fibre sh S e {B} (g : env -> B) (h : list nat -> B) :
  NoDup S ->
  (forall e' red, length red = length S ->
     (forall x, e' x = if smem x S then nth (spos x S) red 0 else e x) -> g e' = h red) ->
  map g (fibre sh S e) = map h (ndindex (map (size_of sh) S)).
Proof.
  intros N H. assert (F := fibre_ndindex sh S e N). induction F; simpl; auto.
  f_equal; auto. apply H; apply H0.
Qed.

Lemma fibre_merge sh (L : list string) (S : list string) e :
  NoDup L -> incl S L ->
  let S' := filter (fun ax => smem ax S) L in
  map (fun e' : env => map e' L) (fibre sh S' e) =
  map (merge_idx (map (fun ax => smem ax S) L) (map e (filter (fun ax => negb (smem ax S)) L)))
      (ndindex (map (size_of sh) S')).
Proof.
  intros N I S'. assert (N' : NoDup S') by now apply NoDup_filter.
  apply map_fibre; auto. intros e' red Lr E.
  assert (R : red = map e' S').
  { apply list_eq_nth with (d := 0); [now rewrite map_length|]. intros i Hi. rewrite Lr in Hi.
    rewrite map_nth_in with (d := ""%string) by auto. rewrite E.
    assert (In (nth i S' ""%string) S') by now apply nth_In.
    apply smem_In in H. rewrite H. now rewrite spos_nth. }
  rewrite R. unfold S'. rewrite merge_map. apply map_ext_in. intros x Hx.
  destruct (smem x S) eqn:Sx; auto. rewrite E.
  assert (~ In x S'). { unfold S'. rewrite filter_In. intros [_ H]. congruence. }
  apply smem_false in H. now rewrite H.
Qed.

Lemma filter_map_swap {X Y} (p : Y -> bool) (g : X -> Y) l :
  filter p (map g l) = map g (filter (fun x => p (g x)) l).
Proof. induction l as [|x l IH]; simpl; auto. destruct (p (g x)); simpl; congruence. Qed.

Lemma fibre_ext sh sh' S e : (forall ax, In ax S -> size_of sh ax = size_of sh' ax) -> fibre sh S e = fibre sh' S e.
Proof.
  revert e. induction S as [|ax S IH]; intros e H; simpl; auto.
  rewrite <- (H ax) by (simpl; auto). apply flat_map_ext. intros i. apply IH. intros; apply H; simpl; auto.
Qed.

(** The elements that a numpy reduction collects. *)
Lemma np_reduce_elements {A} (a : sarr A) (n : nd A) L S sh (sel : list nat -> bool) (sel' : env -> bool) e :
  NoDup L -> incl S L ->
  nshape n = map (size_of sh) L ->
  (forall e, nget n (map e L) = at_ a e) ->
  (forall e, sel (map e L) = sel' e) ->
  let flags := map (fun p => nmem p (map (fun ax => spos ax L) S)) (seq 0 (ndim n)) in
  map (nget n) (filter sel (map (merge_idx flags (map e (filter (fun ax => negb (smem ax S)) L)))
                                (ndindex (pick true flags (nshape n))))) =
  map (at_ a) (filter sel' (fibre sh (filter (fun ax => smem ax S) L) e)).
Proof.
  intros N I HS HG HSel flags.
  assert (F : flags = map (fun ax => smem ax S) L).
  { unfold flags, ndim. rewrite HS, map_length. now apply flags_named. }
  rewrite F, HS, pick_map, eqb_true_filter.
  rewrite <- fibre_merge by auto. rewrite filter_map_swap, map_map.
  rewrite (filter_ext _ sel') by (intros; apply HSel). apply map_ext. intros e'. apply HG.
Qed.

Lemma prod_total_size sh l : (forall ax, In ax l -> In ax (dkeys sh)) -> prod (map (size_of sh) l) = total_size sh l.
Proof.
  induction l as [|ax l IH]; simpl; auto. intros H. rewrite IH by auto.
  unfold size_of. assert (Hax : In ax (dkeys sh)) by auto. apply dget_Some_key in Hax as [k ->]. auto.
Qed.

Lemma In_combine_map {X} (h : string -> X) l ax n :
  In (ax, n) (combine l (map h l)) <-> In ax l /\ n = h ax.
Proof.
  induction l as [|x l IH]; simpl; [tauto|]. rewrite IH. split.
  - intros [E|[H1 H2]]; [injection E as <- <-; auto|auto].
  - intros [[->|H1] H2]; subst; auto.
Qed.

Lemma bto_sizes (g h : string -> nat) L :
  (bto_rev (rev (map g L)) (rev (map h L)) = true <-> forall ax, In ax L -> g ax = 1 \/ g ax = h ax).
Proof.
  rewrite bto_Forall2 by (now rewrite !map_length). rewrite Forall2_map_l, Forall2_map_r.
  induction L as [|x L IH]; simpl; [split; [tauto|constructor]|]. split.
  - intros H. inversion H; subst. intros ax [<-|Hax]; [lia|]. now apply IH.
  - intros H. constructor; [destruct (H x); auto|]. apply IH. auto.
Qed.

Theorem reduce_spec {A B} (identity : bool) (f : list A -> B) (a : sarr A)
        (axis : option (list string)) (keepdims : bool) (w : option (operand bool)) :
  wf a -> (forall o, w = Some o -> op_wf o) ->
  let S := match axis with Some l => l | None => s_axes a end in
  match broadcast_shapes (sshape a :: match w with Some o => op_shapes [o] | None => [] end) with
  | Err _ => na_reduce identity f a axis keepdims w None = Err ValueError
  | Ok sh =>
      let others := filter (fun ax => negb (smem ax S)) (dkeys sh) in
      let ok := NoDup S /\ incl S (dkeys sh) /\
        (forall o, w = Some o -> identity = true /\
           forall ax, size_of (op_shape o) ax = 1 \/ size_of (op_shape o) ax = size_of (sshape a) ax) /\
        (identity = true \/ total_size sh S <> 0 \/ total_size sh others = 0) in
      (ok -> exists r, na_reduce identity f a axis keepdims w None = Ok r /\ wf r /\
         s_axes r = (if keepdims then dkeys sh else others) /\
         (forall ax n, In (ax, n) (sshape r) <->
            In ax (s_axes r) /\ n = if smem ax S then 1 else size_of (sshape a) ax) /\
         forall e, at_ r e =
           f (map (at_ a) (filter (fun e' => match w with Some o => op_at o e' | None => true end)
                             (fibre (sshape a) (filter (fun ax => smem ax S) (dkeys sh)) e)))) /\
      (~ ok -> na_reduce identity f a axis keepdims w None = Err ValueError)
  end.
Proof.
  intros Wa Ww S.
  assert (Ww' : Forall op_wf match w with Some o => [o] | None => [] end).
  { destruct w; constructor; auto. }
  set (ws := match w with Some o => op_shapes [o] | None => [] end).
  assert (Nws : Forall (fun s : shape => NoDup (dkeys s)) (sshape a :: ws)).
  { constructor; [now apply wf_nodup|]. unfold ws. destruct w; [|constructor]. now apply op_shapes_nodup. }
  unfold na_reduce. fold ws.
  destruct (broadcast_shapes (sshape a :: ws)) as [sh|er] eqn:E; cbn [bind].
  2: { destruct (broadcast_shapes_total _ Nws) as [[r Hr]|Hr]; congruence. }
  set (others := filter (fun ax => negb (smem ax S)) (dkeys sh)).
  match goal with |- (?P -> _) /\ _ => set (ok := P) end.
  destruct (broadcast_shapes_ok _ _ Nws E) as (ND & K & SZ).
  assert (BD := broadcast_shapes_bound _ _ Nws E). rewrite Forall_forall in BD.
  assert (Ia : incl (s_axes a) (dkeys sh)).
  { intros ax Hax. apply (BD (sshape a)); [simpl; auto|]. now rewrite wf_keys. }
  (* the axis argument *)
  assert (AX : axis_normalized a axis = S) by (destruct axis; reflexivity).
  rewrite AX.
  destruct (incl_sdec S (dkeys sh)) as [IS|IS].
  2: { split; [intros (_ & H & _); contradiction|]. intros _.
       destruct axis as [S0|]; [|exfalso; apply IS; exact Ia].
       assert (G : forallb (fun ax => smem ax (dkeys sh)) S = false).
       { destruct (forallb _ _) eqn:G; auto. exfalso. apply IS. intros ax Hax.
         rewrite forallb_forall in G. apply smem_In. now apply G. }
       rewrite G. reflexivity. }
  assert (G : (if match axis with Some _ => negb (forallb (fun ax => smem ax (dkeys sh)) S) | None => false end then true else false) = false).
  { destruct axis; auto. assert (forallb (fun ax => smem ax (dkeys sh)) S = true); [|now rewrite H].
    apply forallb_forall. intros ax Hax. apply smem_In. auto. }
  destruct (match axis with Some _ => _ | None => false end); [discriminate|]. clear G.
  rewrite mapM_index_of by auto. cbn [bind].
  (* the mask *)
  assert (MM : exists mo, match w with Some o => m <- op_aligned (dkeys sh) o ;; Ok (Some m) | None => Ok None end = Ok mo /\
     match w, mo with
     | Some o, Some m => (forall e, bget m (map e (dkeys sh)) = op_at o e) /\
         (bto_rev (rev (nshape m)) (rev (map (size_of (sshape a)) (dkeys sh))) = true <->
          forall ax, size_of (op_shape o) ax = 1 \/ size_of (op_shape o) ax = size_of (sshape a) ax)
     | None, None => True
     | _, _ => False
     end).
  { destruct w as [o|]; [|exists None; auto]. specialize (Ww o eq_refl).
    destruct o as [b|x]; cbn [op_aligned op_wf] in *.
    - destruct (align_sub b (dkeys sh)) as [m (M1 & M2 & _)]; auto.
      + intros ax Hax. apply (BD (sshape b)); [simpl; auto|]. now rewrite wf_keys.
      + rewrite M1. cbn [bind]. exists (Some m). split; auto. split.
        * intros e. now apply bget_aligned.
        * rewrite M2. rewrite (bto_sizes (asize b)). cbn [op_shape]. split.
          -- intros H ax. destruct (in_dec string_dec ax (dkeys sh)) as [Hin|Hin]; [apply (H ax Hin)|].
             left. apply (asize_absent b); auto. intros Hb. apply Hin. apply (BD (sshape b)); [simpl; auto|]. now rewrite wf_keys.
          -- intros H ax _. apply H.
    - exists (Some (scalar x)). split; auto. split; auto. cbn [op_shape]. split; auto.
      all: unfold size_of; simpl; auto. }
  destruct MM as [mo [-> MO]]. cbn [bind].
  destruct (align_sub a (dkeys sh) Wa ND Ia) as [n (N1 & N2 & N3)]. rewrite N1. cbn [bind].
  change (nshape n = map (size_of (sshape a)) (dkeys sh)) in N2.
  (* numpy *)
  unfold np_reduce.
  assert (FL : map (fun p => nmem p (map (fun ax => spos ax (dkeys sh)) S)) (seq 0 (ndim n)) = map (fun ax => smem ax S) (dkeys sh)).
  { unfold ndim. rewrite N2, map_length. now apply flags_named. }
  rewrite FL, N2, !pick_map, eqb_true_filter, eqb_false_filter. fold others.
  destruct (nnodupb (map (fun ax => spos ax (dkeys sh)) S)) eqn:EN; cbn [negb].
  2: { split; [|reflexivity]. intros (H & _). apply (nnodupb_spos (dkeys sh)) in H; auto. congruence. }
  apply nnodupb_spos in EN; auto.
  (* mask condition *)
  set (mc := match mo with Some m => identity && bto_rev (rev (nshape m)) (rev (map (size_of (sshape a)) (dkeys sh))) | None => true end).
  assert (MC : mc = true <-> (forall o, w = Some o -> identity = true /\
           forall ax, size_of (op_shape o) ax = 1 \/ size_of (op_shape o) ax = size_of (sshape a) ax)).
  { unfold mc. destruct w as [o|], mo as [m|]; try contradiction.
    - destruct MO as [_ MO]. rewrite andb_true_iff, MO. split; [intros H o' Eo; injection Eo as <-; auto|auto].
    - split; auto. intros _ o Ho. discriminate. }
  destruct mc eqn:Emc; cbn [negb].
  2: { split; [|reflexivity]. intros (_ & _ & H & _). apply MC in H. discriminate. }
  assert (MC' := proj1 MC eq_refl).
  (* sizes *)
  assert (SS : forall ax, In ax (dkeys sh) -> size_of sh ax = size_of (sshape a) ax).
  { intros ax Hax. apply dget_Some_key in Hax as [k Hk]. unfold size_of at 1. rewrite Hk.
    apply dget_In in Hk. apply SZ in Hk as [_ C]. apply common_size_bjoin in C.
    destruct w as [[b|x]|]; unfold ws in *; cbn [op_shapes flat_map app] in *.
    - destruct (MC' _ eq_refl) as [_ M]. cbn [op_shape] in M.
      assert (J : bjoin (map (fun o => match o with Some s => size_of s ax | None => 1 end) [Some (sshape a); Some (sshape b)]) k).
      { apply bjoin_sizes. exact C. }
      destruct J as [J1 J2]. cbn [map] in *. inversion J1 as [|? ? Ja Jb]; subst. inversion Jb as [|? ? Jc _]; subst.
      destruct (M ax) as [M1|M1].
      + destruct Ja as [Ja|Ja]; auto. rewrite Ja. apply J2. rewrite Ja, M1. repeat constructor.
      + rewrite M1 in *. destruct Ja as [Ja|Ja]; auto. rewrite Ja in *. apply J2. repeat constructor.
    - assert (J : bjoin (map (fun o => match o with Some s => size_of s ax | None => 1 end) [Some (sshape a)]) k).
      { apply bjoin_sizes. exact C. }
      destruct J as [J1 J2]. cbn [map] in *. inversion J1 as [|? ? Ja _]; subst. destruct Ja as [Ja|Ja]; auto.
      rewrite Ja. apply J2. rewrite Ja. repeat constructor.
    - assert (J : bjoin (map (fun o => match o with Some s => size_of s ax | None => 1 end) [Some (sshape a)]) k).
      { apply bjoin_sizes. exact C. }
      destruct J as [J1 J2]. cbn [map] in *. inversion J1 as [|? ? Ja _]; subst. destruct Ja as [Ja|Ja]; auto.
      rewrite Ja. apply J2. rewrite Ja. repeat constructor. }
  assert (Io : incl others (dkeys sh)) by (intros ax Hax; unfold others in Hax; apply filter_In in Hax; tauto).
  assert (P1 : prod (map (size_of (sshape a)) (filter (fun ax => smem ax S) (dkeys sh))) = total_size sh S).
  { rewrite <- prod_total_size by auto.
    transitivity (prod (map (size_of sh) (filter (fun ax => smem ax S) (dkeys sh)))).
    - f_equal. apply map_ext_in. intros ax Hax. apply filter_In in Hax as [Hax _]. now rewrite SS.
    - apply prod_perm. apply Permutation_map. apply NoDup_Permutation; auto; [now apply NoDup_filter|].
      intros x. rewrite filter_In, smem_In. split; [tauto|]. intros H; split; auto. }
  assert (P2 : prod (map (size_of (sshape a)) others) = total_size sh others).
  { rewrite <- prod_total_size by auto. f_equal. apply map_ext_in. intros ax Hax. rewrite SS; auto. }
  rewrite P1, P2.
  destruct (negb identity && (total_size sh S =? 0) && negb (total_size sh others =? 0)) eqn:EI.
  { split; [|reflexivity]. intros (_ & _ & _ & H). exfalso.
    apply andb_true_iff in EI as [EI E3]. apply andb_true_iff in EI as [E1 E2].
    apply negb_true_iff in E1, E3. apply Nat.eqb_eq in E2. apply Nat.eqb_neq in E3.
    destruct H as [H|[H|H]]; congruence. }
  assert (OK : ok).
  { split; [auto|split; [auto|split; [auto|]]]. destruct identity; [auto|]. right. cbn [negb andb] in EI.
    destruct (Nat.eqb_spec (total_size sh S) 0); [|auto]. right. cbn [andb] in EI.
    apply negb_false_iff in EI. now apply Nat.eqb_eq in EI. }
  split; [intros _|contradiction].
  cbn [option_map negb bind]. 
  set (rs := if keepdims then _ else _).
  assert (RS : rs = map (fun ax => if smem ax S then 1 else size_of (sshape a) ax) (if keepdims then dkeys sh else others)).
  { unfold rs. destruct keepdims.
    - clear. induction (dkeys sh) as [|x l IH]; simpl; congruence.
    - apply map_ext_in. intros ax Hax. unfold others in Hax. apply filter_In in Hax as [_ Hax].
      apply negb_true_iff in Hax. now rewrite Hax. }
  assert (NR : NoDup (if keepdims then dkeys sh else others)).
  { destruct keepdims; auto. now apply NoDup_filter. }
  assert (LR : length (if keepdims then dkeys sh else others) = length rs) by (rewrite RS, map_length; auto).
  rewrite mk_sarr_intro; auto.
  eexists. split; [reflexivity|]. split; [split; auto|]. split; [reflexivity|]. split.
  - intros ax k. unfold sshape. cbn [s_nd s_axes nshape]. rewrite RS. apply In_combine_map.
  - intros e. unfold at_ at 1. cbn [s_nd s_axes nget]. f_equal.
    assert (KK : (if keepdims then pick false (map (fun ax => smem ax S) (dkeys sh)) (map e (if keepdims then dkeys sh else others))
                 else map e (if keepdims then dkeys sh else others)) = map e others).
    { destruct keepdims; auto. rewrite pick_map, eqb_false_filter. reflexivity. }
    rewrite KK.
    assert (EL := np_reduce_elements a n (dkeys sh) S (sshape a)
       (fun idx => match mo with Some m => bget m idx | None => true end)
       (fun e' => match w with Some o => op_at o e' | None => true end) e ND IS N2).
    cbv zeta in EL. rewrite FL, N2, pick_map, eqb_true_filter in EL. apply EL.
    + intros e'. apply N3.
    + intros e'. destruct w, mo; try contradiction; auto. apply MO.
Qed.

(** ** The order of the axes does not matter for symmetric functions *)

Lemma flat_map_swap {X Y Z} (F : X -> Y -> list Z) l1 l2 :
  Permutation (flat_map (fun i => flat_map (F i) l2) l1)
              (flat_map (fun j => flat_map (fun i => F i j) l1) l2).
Proof.
  induction l1 as [|x l1 IH]; simpl.
  - induction l2; simpl; auto.
  - etransitivity; [apply Permutation_app_head, IH|]. clear IH.
    induction l2 as [|y l2 IH]; simpl; auto.
    rewrite <- !app_assoc. apply Permutation_app_head.
    etransitivity; [|apply Permutation_app_head, IH].
    rewrite !app_assoc. apply Permutation_app_tail. apply Permutation_app_comm.
Qed.

Definition respects {B} (g : env -> B) : Prop := forall e1 e2 : env, (forall x, e1 x = e2 x) -> g e1 = g e2.

Lemma flat_map_fibre_ext sh S {B} (g : env -> list B) e1 e2 :
  respects g -> (forall x, e1 x = e2 x) -> flat_map g (fibre sh S e1) = flat_map g (fibre sh S e2).
Proof.
  intros R. revert e1 e2. induction S as [|ax S IH]; intros e1 e2 H; simpl.
  - now rewrite (R e1 e2).
  - induction (seq 0 (size_of sh ax)) as [|i l IHl]; simpl; auto.
    rewrite !flat_map_app. f_equal; auto. apply IH. intros x. unfold set_env.
    destruct (String.eqb x ax); auto.
Qed.

Lemma Permutation_flat_map_in {X Y} (F G : X -> list Y) l :
  (forall x, In x l -> Permutation (F x) (G x)) -> Permutation (flat_map F l) (flat_map G l).
Proof.
  induction l; simpl; intros H; auto. apply Permutation_app; auto.
Qed.

Lemma flat_map_flat_map {X Y Z} (F : Y -> list Z) (G : X -> list Y) l :
  flat_map F (flat_map G l) = flat_map (fun x => flat_map F (G x)) l.
Proof. induction l; simpl; auto. rewrite flat_map_app. congruence. Qed.

Lemma fibre_perm sh S S' {B} (g : env -> list B) e :
  respects g -> NoDup S -> Permutation S S' ->
  Permutation (flat_map g (fibre sh S e)) (flat_map g (fibre sh S' e)).
Proof.
  intros R N P. revert e N. induction P; intros e N; simpl; auto.
  - inversion N; subst. rewrite !flat_map_flat_map. apply Permutation_flat_map_in. intros i _. auto.
  - rewrite !flat_map_flat_map.
    rewrite (flat_map_ext _ (fun i => flat_map (fun j => flat_map g (fibre sh l (set_env (set_env e y i) x j))) (seq 0 (size_of sh x)))
               (fun i => flat_map_flat_map _ _ _)).
    etransitivity; [apply flat_map_swap|].
    apply Permutation_flat_map_in. intros i _. rewrite flat_map_flat_map.
    apply Permutation_flat_map_in. intros j _.
    rewrite (flat_map_fibre_ext sh l g _ (set_env (set_env e x i) y j)); auto.
    intros z. unfold set_env. inversion N as [|? ? H _]; subst. simpl in H.
    destruct (String.eqb_spec z x), (String.eqb_spec z y); subst; auto. exfalso. auto.
  - etransitivity; [apply IHP1; auto|]. apply IHP2. eapply Permutation_NoDup; eauto.
Qed.

Lemma map_filter_flat_map {X Y} (p : X -> bool) (g : X -> Y) l :
  map g (filter p l) = flat_map (fun x => if p x then [g x] else []) l.
Proof. induction l as [|x l IH]; simpl; auto. destruct (p x); simpl; congruence. Qed.

Lemma at_respects {A} (a : sarr A) : respects (at_ a).
Proof. intros e1 e2 H. unfold at_. f_equal. apply map_ext. auto. Qed.

Lemma op_at_respects {A} (o : operand A) : respects (op_at o).
Proof.
  intros e1 e2 H. destruct o; simpl; auto. unfold bat. apply at_respects. intros x.
  unfold bclamp. destruct (dget (sshape a) x) as [[|[|]]|]; auto.
Qed.

Lemma fibre_symmetric {A B} (f : list A -> B) (a : sarr A) (w : option (operand bool)) sh S S' e :
  symmetric f -> NoDup S -> Permutation S S' ->
  f (map (at_ a) (filter (fun e' => match w with Some o => op_at o e' | None => true end) (fibre sh S e))) =
  f (map (at_ a) (filter (fun e' => match w with Some o => op_at o e' | None => true end) (fibre sh S' e))).
Proof.
  intros Sy N P. apply Sy. rewrite !map_filter_flat_map. apply fibre_perm; auto.
  intros e1 e2 H. rewrite (at_respects a e1 e2 H). destruct w; auto. now rewrite (op_at_respects o e1 e2 H).
Qed.

Lemma filter_smem_perm S L : NoDup S -> NoDup L -> incl S L -> Permutation (filter (fun ax => smem ax S) L) S.
Proof.
  intros N1 N2 I. apply NoDup_Permutation; auto; [now apply NoDup_filter|].
  intros x. rewrite filter_In, smem_In. split; [tauto|]. auto.
Qed.

(** what a successful reduction tells about its arguments *)
Lemma reduce_inv {A B} (identity : bool) (f : list A -> B) (a : sarr A)
        (axis : option (list string)) (keepdims : bool) (w : option (operand bool)) (r : sarr B) :
  wf a -> (forall o, w = Some o -> op_wf o) ->
  na_reduce identity f a axis keepdims w None = Ok r ->
  let S := match axis with Some l => l | None => s_axes a end in
  exists sh,
  broadcast_shapes (sshape a :: match w with Some o => op_shapes [o] | None => [] end) = Ok sh /\
  NoDup (dkeys sh) /\ incl (s_axes a) (dkeys sh) /\
  NoDup S /\ incl S (dkeys sh) /\
  (forall o, w = Some o -> identity = true /\
           forall ax, size_of (op_shape o) ax = 1 \/ size_of (op_shape o) ax = size_of (sshape a) ax) /\
  (identity = true \/ total_size sh S <> 0 \/ total_size sh (filter (fun ax => negb (smem ax S)) (dkeys sh)) = 0) /\
  wf r /\
  s_axes r = (if keepdims then dkeys sh else filter (fun ax => negb (smem ax S)) (dkeys sh)) /\
  (forall ax n, In (ax, n) (sshape r) <->
            In ax (s_axes r) /\ n = if smem ax S then 1 else size_of (sshape a) ax) /\
  (forall e, at_ r e =
           f (map (at_ a) (filter (fun e' => match w with Some o => op_at o e' | None => true end)
                             (fibre (sshape a) (filter (fun ax => smem ax S) (dkeys sh)) e)))).
Proof.
  intros Wa Ww E S. assert (R := reduce_spec identity f a axis keepdims w Wa Ww).
  cbv zeta in R. fold S in R.
  destruct (broadcast_shapes _) as [sh|] eqn:Eb; [|congruence].
  destruct R as [R1 R2]. match type of R1 with (?P -> _) => set (ok := P) in * end.
  assert (Nws : Forall (fun s : shape => NoDup (dkeys s)) (sshape a :: match w with Some o => op_shapes [o] | None => [] end)).
  { constructor; [now apply wf_nodup|]. destruct w; [|constructor]. apply op_shapes_nodup. repeat constructor; auto. }
  assert (ND : NoDup (dkeys sh)) by (eapply (proj1 (broadcast_shapes_ok _ _ Nws Eb))).
  assert (BD := broadcast_shapes_bound _ _ Nws Eb). rewrite Forall_forall in BD.
  assert (D : ~ ~ ok). { intros H. rewrite (R2 H) in E. discriminate. }
  assert (OK : ok).
  { unfold ok. split; [|split; [|split]].
    - destruct (nodupb S) eqn:EN; [now apply nodupb_NoDup|]. exfalso. apply D.
      intros (H & _). apply nodupb_NoDup in H. congruence.
    - destruct (incl_sdec S (dkeys sh)); auto. exfalso. apply D. intros (_ & H & _). contradiction.
    - intros o Eo. split.
      + destruct identity; auto. exfalso. apply D. intros (_ & _ & H & _). destruct (H o Eo); discriminate.
      + intros ax. destruct (Nat.eq_dec (size_of (op_shape o) ax) 1); auto.
        destruct (Nat.eq_dec (size_of (op_shape o) ax) (size_of (sshape a) ax)); auto.
        exfalso. apply D. intros (_ & _ & H & _). destruct (H o Eo) as [_ H']. destruct (H' ax); congruence.
    - destruct identity; auto. right.
      destruct (Nat.eq_dec (total_size sh S) 0); auto.
      destruct (Nat.eq_dec (total_size sh (filter (fun ax => negb (smem ax S)) (dkeys sh))) 0); auto.
      exfalso. apply D. intros (_ & _ & _ & [H|[H|H]]); congruence. }
  destruct (R1 OK) as [r' (E' & Wr & AXr & Szr & El)]. assert (r' = r) by congruence. subst r'.
  destruct OK as (O1 & O2 & O3 & O4). exists sh.
  repeat match goal with |- _ /\ _ => split; auto end.
  intros ax Hax. apply (BD (sshape a)); [simpl; auto|]. now rewrite wf_keys.
Qed.

(** reductions with a symmetric function, with the axes in any order *)
Theorem reduce_symmetric {A B} (identity : bool) (f : list A -> B) (a : sarr A)
        (axis : option (list string)) (keepdims : bool) (w : option (operand bool)) (r : sarr B) :
  wf a -> (forall o, w = Some o -> op_wf o) -> symmetric f ->
  na_reduce identity f a axis keepdims w None = Ok r ->
  let S := match axis with Some l => l | None => s_axes a end in
  forall S' e, Permutation S S' ->
    at_ r e = f (map (at_ a) (filter (fun e' => match w with Some o => op_at o e' | None => true end)
                               (fibre (sshape a) S' e))).
Proof.
  intros Wa Ww Sy E S S' e P. destruct (reduce_inv _ _ _ _ _ _ _ Wa Ww E) as (sh & _ & ND & _ & NS & IS & _ & _ & _ & _ & _ & EL).
  fold S in NS, IS, EL. rewrite EL. apply fibre_symmetric; auto; [now apply NoDup_filter|].
  etransitivity; [|exact P]. now apply filter_smem_perm.
Qed.

(** ** Storage order *)

Lemma fibre_size_ext sh sh' S : (forall ax, In ax S -> size_of sh ax = size_of sh' ax) ->
  forall e, fibre sh S e = fibre sh' S e.
Proof.
  induction S as [|ax S IH]; intros H e; simpl; auto. rewrite (H ax) by (simpl; auto).
  apply flat_map_ext. intros i. apply IH. intros. apply H. simpl; auto.
Qed.

Lemma fibre_app sh S T e : fibre sh (S ++ T) e = flat_map (fibre sh T) (fibre sh S e).
Proof.
  revert e. induction S as [|ax S IH]; intros e; simpl; [now rewrite app_nil_r|].
  rewrite flat_map_flat_map. apply flat_map_ext. intros i. apply IH.
Qed.

Lemma size_of_In (sh : shape) ax n : NoDup (dkeys sh) -> In (ax, n) sh -> size_of sh ax = n.
Proof. intros N H. unfold size_of. now rewrite (dget_NoDup sh ax n). Qed.

Lemma total_size_perm sh l l' : Permutation l l' -> total_size sh l = total_size sh l'.
Proof. intros P. unfold total_size. induction P; simpl; try congruence.
  - now rewrite IHP.
  - destruct (dget sh x), (dget sh y); lia. Qed.

Lemma same_shape_size_of s t ax : NoDup (dkeys s) -> NoDup (dkeys t) -> same_shape s t -> size_of s ax = size_of t ax.
Proof. intros. unfold size_of. now rewrite (same_shape_dget s t). Qed.

Lemma total_size_same s t l : NoDup (dkeys s) -> NoDup (dkeys t) -> same_shape s t -> incl l (dkeys s) ->
  total_size s l = total_size t l.
Proof.
  intros N1 N2 Sm I. rewrite <- !prod_total_size; auto.
  - f_equal. apply map_ext. intros. now apply same_shape_size_of.
  - intros ax Hax. apply (same_shape_keys s t); auto.
Qed.

Lemma same_axes_perm {A} (a b : sarr A) : wf a -> wf b -> same_shape (sshape a) (sshape b) -> Permutation (s_axes a) (s_axes b).
Proof.
  intros Wa Wb Sm. apply NoDup_Permutation; [apply Wa|apply Wb|].
  intros x. rewrite <- (wf_keys a), <- (wf_keys b); auto. now apply same_shape_keys.
Qed.

Lemma smem_perm x l l' : Permutation l l' -> smem x l = smem x l'.
Proof.
  intros P. destruct (smem x l) eqn:E1, (smem x l') eqn:E2; auto.
  - apply smem_In in E1. apply (Permutation_in _ P) in E1. apply smem_In in E1. congruence.
  - apply smem_In in E2. apply (Permutation_in _ (Permutation_sym P)) in E2. apply smem_In in E2. congruence.
Qed.

Lemma reduce_err {A B} (identity : bool) (f : list A -> B) (a : sarr A) axis keepdims w er :
  wf a -> (forall o, w = Some o -> op_wf o) ->
  na_reduce identity f a axis keepdims w None = Err er -> er = ValueError.
Proof.
  intros Wa Ww E. assert (R := reduce_spec identity f a axis keepdims w Wa Ww). cbv zeta in R.
  destruct (broadcast_shapes _); [|congruence].
  destruct R as [R1 R2]. match type of R1 with (?P -> _) => set (ok := P) in * end.
  assert (H : ~ ok). { intros H. destruct (R1 H) as [r [E' _]]. congruence. }
  rewrite (R2 H) in E. congruence.
Qed.

Lemma same_op_size (o o' : operand bool) ax : op_wf o -> op_wf o' -> same_operand o o' ->
  size_of (op_shape o) ax = size_of (op_shape o') ax.
Proof.
  destruct o, o'; simpl; try tauto; auto. intros W W' [Sm _]. apply same_shape_size_of; auto using wf_nodup.
Qed.

(** the labelled indices met by a reduction lie inside the reduced array *)
Lemma fibre_inside sh S e e' :
  In e' (fibre sh S e) ->
  (forall ax, In ax S -> e' ax < size_of sh ax) /\ (forall ax, ~ In ax S -> e' ax = e ax).
Proof.
  revert e. induction S as [|x S IH]; intros e H; simpl in *.
  - destruct H as [->|[]]. split; tauto.
  - apply in_flat_map in H as [i [Hi H]]. apply in_seq in Hi. destruct (IH _ H) as [H1 H2]. split.
    + intros ax [->|Hax]; auto. destruct (in_dec string_dec ax S); auto. rewrite H2 by auto.
      unfold set_env. rewrite String.eqb_refl. lia.
    + intros ax Hax. rewrite H2 by tauto. unfold set_env. destruct (String.eqb_spec ax x); auto. subst. tauto.
Qed.

Lemma reduce_inside {A} (a : sarr A) (S : list string) (shr : shape) e e' :
  wf a -> inside e shr ->
  (forall ax, In ax (s_axes a) -> ~ In ax S -> In (ax, size_of (sshape a) ax) shr) ->
  In e' (fibre (sshape a) S e) -> inside e' (sshape a).
Proof.
  intros Wa I H F. apply fibre_inside in F as [F1 F2]. apply inside_asize; auto. intros ax Hax.
  rewrite asize_size_of. destruct (in_dec string_dec ax S) as [Hin|Hin]; auto.
  rewrite F2 by auto. apply I. auto.
Qed.

Lemma reduce_same_half {A B} (identity : bool) (f : list A -> B) (a a' : sarr A) axis axis' keepdims w w' r :
  wf a -> wf a' -> (forall o, w = Some o -> op_wf o) -> (forall o, w' = Some o -> op_wf o) -> symmetric f ->
  same_array a a' -> same_mask w w' ->
  Permutation match axis with Some l => l | None => s_axes a end match axis' with Some l => l | None => s_axes a' end ->
  na_reduce identity f a axis keepdims w None = Ok r ->
  exists r', na_reduce identity f a' axis' keepdims w' None = Ok r' /\ same_array r r'.
Proof.
  intros Wa Wa' Ww Ww' Sy [Sh El] Sw PS E.
  destruct (reduce_inv _ _ _ _ _ _ _ Wa Ww E) as (sh & Eb & ND & Ia & NS & IS & MC & TC & Wr & AXr & Szr & Elr).
  assert (RS := reduce_symmetric _ _ _ _ _ _ _ Wa Ww Sy E). cbv zeta in RS.
  revert NS IS TC AXr Szr Elr PS RS.
  set (S := match axis with Some l => l | None => s_axes a end).
  intros NS IS TC AXr Szr Elr PS RS.
  assert (R := reduce_spec identity f a' axis' keepdims w' Wa' Ww'). cbv zeta in R. revert R PS.
  set (S' := match axis' with Some l => l | None => s_axes a' end). intros R PS.
  assert (NDl : Forall (fun s : shape => NoDup (dkeys s)) (sshape a :: match w with Some o => op_shapes [o] | None => [] end)).
  { constructor; [now apply wf_nodup|]. destruct w; [|constructor]. apply op_shapes_nodup. repeat constructor; auto. }
  assert (NDl' : Forall (fun s : shape => NoDup (dkeys s)) (sshape a' :: match w' with Some o => op_shapes [o] | None => [] end)).
  { constructor; [now apply wf_nodup|]. destruct w'; [|constructor]. apply op_shapes_nodup. repeat constructor; auto. }
  assert (F2 : Forall2 (fun s t => same_shape s t) (sshape a :: match w with Some o => op_shapes [o] | None => [] end)
       (sshape a' :: match w' with Some o => op_shapes [o] | None => [] end)).
  { constructor; auto. destruct w as [[b|]|], w' as [[b'|]|]; simpl in *; try contradiction; auto.
    constructor; auto. apply Sw. }
  assert (BS := broadcast_shapes_same _ _ F2 NDl NDl'). rewrite Eb in BS.
  destruct (broadcast_shapes (sshape a' :: _)) as [sh'|] eqn:Eb'; [|contradiction].
  destruct (broadcast_shapes_ok _ _ NDl' Eb') as (ND' & _).
  assert (PK : Permutation (dkeys sh) (dkeys sh')).
  { apply NoDup_Permutation; auto. intros x. now apply same_shape_keys. }
  assert (SZ : forall ax, size_of (sshape a) ax = size_of (sshape a') ax).
  { intros ax. apply same_shape_size_of; auto using wf_nodup. }
  assert (PO : Permutation (filter (fun ax => negb (smem ax S)) (dkeys sh)) (filter (fun ax => negb (smem ax S')) (dkeys sh'))).
  { apply NoDup_Permutation; try now apply NoDup_filter. intros x. rewrite !filter_In, (smem_perm x _ _ PS).
    rewrite (same_shape_keys _ _ BS). tauto. }
  destruct R as [R _]. match type of R with (?P -> _) => assert (OK : P) end.
  { split; [eapply Permutation_NoDup; eauto|]. split.
    - intros ax Hax. apply (same_shape_keys _ _ BS). apply IS. eapply Permutation_in; [apply Permutation_sym, PS|auto].
    - split.
      + intros o' Ho. destruct w as [o|], w' as [o''|]; simpl in Sw; try contradiction; try discriminate.
        injection Ho as ->. destruct (MC o eq_refl) as [M1 M2]. split; auto. intros ax.
        rewrite <- (same_op_size o o'), <- SZ; auto.
      + rewrite <- (total_size_perm sh' S S') by auto.
        rewrite <- (total_size_perm sh' _ _ PO). rewrite <- !(total_size_same sh sh'); auto.
        intros x Hx. apply filter_In in Hx. tauto. }
  destruct (R OK) as [r' (E' & Wr' & AXr' & Szr' & _)]. exists r'. split; auto.
  assert (SA : same_shape (sshape r) (sshape r')).
  { intros ax k. rewrite Szr, Szr', AXr, AXr', SZ, (smem_perm ax _ _ PS).
    assert (PR : Permutation (if keepdims then dkeys sh else filter (fun ax => negb (smem ax S)) (dkeys sh))
                      (if keepdims then dkeys sh' else filter (fun ax => negb (smem ax S')) (dkeys sh'))).
    { destruct keepdims; auto. }
    split; intros [H ->]; split; auto.
    - exact (Permutation_in _ PR H).
    - exact (Permutation_in _ (Permutation_sym PR) H). }
  split; auto. intros e He.
  rewrite (RS S e (Permutation_refl _)).
  rewrite (reduce_symmetric _ _ _ _ _ _ _ Wa' Ww' Sy E' S e (Permutation_sym PS)).
  assert (NF : forall ax, In ax S -> size_of (sshape a) ax = size_of (sshape a') ax) by auto.
  rewrite <- (fibre_size_ext _ _ _ NF). f_equal.
  assert (IN : forall e', In e' (fibre (sshape a) S e) -> inside e' (sshape a)).
  { intros e' Hin. apply (reduce_inside a S (sshape r) e); auto. intros ax Hax Hs. apply Szr. split.
    - rewrite AXr. destruct keepdims; auto. apply filter_In. split; auto. apply negb_true_iff.
      destruct (smem ax S) eqn:Es; auto. apply smem_In in Es. contradiction.
    - destruct (smem ax S) eqn:Es; auto. apply smem_In in Es. contradiction. }
  induction (fibre (sshape a) S e) as [|e' l IH]; simpl; auto.
  assert (He' := IN e' (or_introl eq_refl)).
  assert (WE : match w with Some o => op_at o e' | None => true end = match w' with Some o => op_at o e' | None => true end).
  { destruct w as [[b|x]|], w' as [[b'|x']|]; simpl in *; try contradiction; auto.
    apply bat_same; auto; [now apply (Ww (OpArr b))|now apply (Ww' (OpArr b'))|].
    apply (bclamp_inside b (sshape a)); auto; [now apply (Ww (OpArr b))|].
    intros ax k Hk. destruct (MC (OpArr b) eq_refl) as [_ M]. cbn [op_shape] in M.
    destruct (M ax) as [M1|M1]; unfold size_of in M1; rewrite Hk in M1; auto.
    destruct (dget (sshape a) ax) eqn:Ea; auto. subst. right. now apply dget_In. }
  rewrite WE. destruct (match w' with Some o => op_at o e' | None => true end); simpl.
  - rewrite El by auto. f_equal. apply IH. intros. apply IN. now right.
  - apply IH. intros. apply IN. now right.
Qed.

Lemma same_array_sym {A} (a b : sarr A) : same_array a b -> same_array b a.
Proof.
  intros [H1 H2]. split; [now apply same_shape_sym|]. intros e He. symmetry. apply H2.
  eapply same_shape_inside; [apply same_shape_sym; eassumption|auto].
Qed.

Lemma same_mask_sym w w' : same_mask w w' -> same_mask w' w.
Proof. destruct w as [[|]|], w' as [[|]|]; simpl; auto using same_array_sym. Qed.

(** the storage order of the array and of the mask, and the order in which the
    axes are named, do not matter *)
Theorem reduce_same {A B} (identity : bool) (f : list A -> B) (a a' : sarr A) axis axis' keepdims w w' :
  wf a -> wf a' -> (forall o, w = Some o -> op_wf o) -> (forall o, w' = Some o -> op_wf o) -> symmetric f ->
  same_array a a' -> same_mask w w' ->
  Permutation match axis with Some l => l | None => s_axes a end match axis' with Some l => l | None => s_axes a' end ->
  same_result (na_reduce identity f a axis keepdims w None) (na_reduce identity f a' axis' keepdims w' None).
Proof.
  intros Wa Wa' Ww Ww' Sy Sa Sw PS.
  destruct (na_reduce identity f a axis keepdims w None) as [r|er] eqn:E.
  - destruct (reduce_same_half identity f a a' axis axis' keepdims w w' r) as [r' [E' H]]; auto. rewrite E'. exact H.
  - assert (X := reduce_err _ _ _ _ _ _ _ Wa Ww E). subst.
    destruct (na_reduce identity f a' axis' keepdims w' None) as [r'|er'] eqn:E'.
    + destruct (reduce_same_half identity f a' a axis' axis keepdims w' w r') as [r [E'' H]];
        auto using same_array_sym, same_mask_sym, Permutation_sym. congruence.
    + assert (X := reduce_err _ _ _ _ _ _ _ Wa' Ww' E'). subst. reflexivity.
Qed.

(** ** Reducing in two steps *)

Section monoid.
Context {A : Type} (op : A -> A -> A) (unit : A).
Hypothesis op_assoc : forall x y z, op x (op y z) = op (op x y) z.
Hypothesis op_comm : forall x y, op x y = op y x.
Hypothesis op_unit : forall x, op unit x = x.

Lemma fold_symmetric : symmetric (fold_right op unit).
Proof.
  intros l l' P. induction P; simpl; congruence.
Qed.

Lemma fold_app l l' : fold_right op unit (l ++ l') = op (fold_right op unit l) (fold_right op unit l').
Proof. induction l; simpl; [now rewrite op_unit|]. now rewrite IHl, op_assoc. Qed.

Lemma fold_flat_map {X} (g : X -> list A) l :
  fold_right op unit (flat_map g l) = fold_right op unit (map (fun x => fold_right op unit (g x)) l).
Proof. induction l; simpl; auto. now rewrite fold_app, IHl. Qed.

Lemma filter_flat_map {X Y} (p : Y -> bool) (g : X -> list Y) l :
  filter p (flat_map g l) = flat_map (fun x => filter p (g x)) l.
Proof. induction l; simpl; auto. now rewrite filter_app, IHl. Qed.

Lemma map_flat_map {X Y Z} (h : Y -> Z) (g : X -> list Y) l :
  map h (flat_map g l) = flat_map (fun x => map h (g x)) l.
Proof. induction l; simpl; auto. now rewrite map_app, IHl. Qed.

Theorem reduce_two_steps (a : sarr A) (S T : list string) keepdims w r :
  wf a -> (forall o, w = Some o -> op_wf o) ->
  na_reduce true (fold_right op unit) a (Some (S ++ T)) keepdims w None = Ok r ->
  exists r1 r2,
    na_reduce true (fold_right op unit) a (Some T) keepdims w None = Ok r1 /\
    na_reduce true (fold_right op unit) r1 (Some S) keepdims None None = Ok r2 /\
    same_array r2 r.
Proof.
  intros Wa Ww E.
  destruct (reduce_inv _ _ _ _ _ _ _ Wa Ww E) as (sh & Eb & ND & Ia & NS & IS & MC & TC & Wr & AXr & Szr & Elr).
  assert (NT : NoDup T). { clear - NS. induction S; auto. inversion NS; auto. }
  assert (NSS : NoDup S).
  { apply (Permutation_NoDup (Permutation_app_comm S T)) in NS. clear - NS. induction T; auto. inversion NS; auto. }
  assert (DJ : forall x, In x S -> In x T -> False).
  { clear - NS. induction S as [|y S IH]; simpl; intros x H1 H2; auto. inversion NS; subst.
    destruct H1 as [->|H1]; [|eapply IH; eauto]. apply H3. apply in_or_app. auto. }
  assert (IT : incl T (dkeys sh)) by (intros x Hx; apply IS, in_or_app; auto).
  assert (ISS : incl S (dkeys sh)) by (intros x Hx; apply IS, in_or_app; auto).
  assert (R := reduce_spec true (fold_right op unit) a (Some T) keepdims w Wa Ww). cbv zeta in R. rewrite Eb in R.
  destruct R as [R _].
  destruct R as [r1 (E1 & W1 & AX1 & Sz1 & El1)]; [auto 6|].
  exists r1.
  assert (NW : forall o : operand bool, None = Some o -> op_wf o) by discriminate.
  assert (R := reduce_spec true (fold_right op unit) r1 (Some S) keepdims None W1 NW). cbv zeta in R.
  change (broadcast_shapes [sshape r1]) with (Ok (sshape r1)) in R.
  assert (K1 : dkeys (sshape r1) = if keepdims then dkeys sh else filter (fun ax => negb (smem ax T)) (dkeys sh)).
  { rewrite wf_keys; auto. }
  assert (NotT : forall x, In x S -> smem x T = false).
  { intros x Hx. destruct (smem x T) eqn:Ex; auto. apply smem_In in Ex. exfalso. eauto. }
  assert (IS1 : incl S (dkeys (sshape r1))).
  { intros x Hx. rewrite K1. destruct keepdims; auto. apply filter_In. split; auto. now rewrite NotT. }
  destruct R as [R _].
  destruct R as [r2 (E2 & W2 & AX2 & Sz2 & El2)]. { repeat split; auto. discriminate. }
  exists r2. split; auto. split; auto.
  assert (SMA : forall ax, smem ax (S ++ T) = smem ax S || smem ax T).
  { intros ax. unfold smem. apply existsb_app. }
  assert (AX : s_axes r2 = s_axes r).
  { rewrite AX2, K1, AXr. destruct keepdims; auto.
    clear. induction (dkeys sh) as [|x l IH]; simpl; auto. unfold smem in *. rewrite existsb_app.
    destruct (existsb (String.eqb x) T); simpl; [now rewrite orb_true_r|]. rewrite orb_false_r.
    destruct (existsb (String.eqb x) S); simpl; auto. now rewrite IH. }
  split.
  - intros ax k. rewrite Sz2, Szr, AX. rewrite SMA.
    assert (HH : In ax (s_axes r) -> smem ax S = false -> size_of (sshape r1) ax = if smem ax T then 1 else size_of (sshape a) ax).
    { intros Hin HS. assert (H1 : In ax (s_axes r1)).
      { rewrite AXr in Hin. rewrite AX1. destruct keepdims; auto. apply filter_In in Hin as [Hin Hn]. apply filter_In. split; auto.
        rewrite SMA, HS in Hn. auto. }
      apply size_of_In; [now apply wf_nodup|]. apply Sz1. auto. }
    destruct (smem ax S) eqn:HS; simpl; [tauto|].
    split; intros [H ->]; (split; [auto|]); rewrite HH by auto; reflexivity.
  - intros e _. rewrite Elr.
    rewrite (reduce_symmetric _ _ _ _ _ _ _ W1 NW fold_symmetric E2 S e (Permutation_refl _)).
    assert (RS := reduce_symmetric _ _ _ _ _ _ _ Wa Ww fold_symmetric E1). cbv zeta in RS.
    rewrite (fibre_symmetric (fold_right op unit) a w (sshape a) (filter (fun ax => smem ax (S ++ T)) (dkeys sh)) (S ++ T) e);
      auto using fold_symmetric, NoDup_filter, filter_smem_perm.
    rewrite fibre_app, filter_flat_map, map_flat_map, fold_flat_map. f_equal.
    assert (FT : forall (l : list env), filter (fun _ => true) l = l) by (induction l; simpl; congruence). rewrite FT.
    rewrite (fibre_size_ext (sshape r1) (sshape a) S).
    + apply map_ext. intros e'. apply RS. auto.
    + intros ax Hax. apply size_of_In; [now apply wf_nodup|]. apply Sz1. rewrite NotT by auto. split; auto.
      rewrite <- wf_keys by auto. auto.
Qed.
End monoid.

(** ** Reducing into an existing array *)

Lemma idx_eqb_refl l : idx_eqb l l = true.
Proof. now apply idx_eqb_true. Qed.

Theorem reduce_out {A B} (identity : bool) (f : list A -> B) (a : sarr A)
        (axis : option (list string)) (keepdims : bool) (w : option (operand bool)) (r o : sarr B) :
  wf a -> (forall m, w = Some m -> op_wf m) -> symmetric f -> wf o ->
  na_reduce identity f a axis keepdims w None = Ok r ->
  (forall ax, In ax (s_axes o) <-> In ax (s_axes r)) ->
  (same_shape (sshape o) (sshape r) ->
   exists r', na_reduce identity f a axis keepdims w (Some o) = Ok r' /\
              wf r' /\ sshape r' = sshape o /\ forall e, at_ r' e = at_ r e) /\
  (~ same_shape (sshape o) (sshape r) ->
   na_reduce identity f a axis keepdims w (Some o) = Err ValueError).
Proof.
  intros Wa Ww Sy Wo E So.
  destruct (reduce_inv _ _ _ _ _ _ _ Wa Ww E) as (sh & Eb & ND & Ia & NS & IS & MC & TC & Wr & AXr & Szr & Elr).
  assert (RS := reduce_symmetric _ _ _ _ _ _ _ Wa Ww Sy E). cbv zeta in RS.
  assert (AX : axis_normalized a axis = match axis with Some l => l | None => s_axes a end) by (destruct axis; reflexivity).
  unfold na_reduce. rewrite Eb. cbn [bind]. rewrite AX.
  revert NS IS TC AXr Szr Elr RS.
  set (S := match axis with Some l => l | None => s_axes a end).
  intros NS IS TC AXr Szr Elr RS.
  assert (G : (if match axis with Some _ => negb (forallb (fun ax => smem ax (dkeys sh)) S) | None => false end then true else false) = false).
  { destruct axis; auto. assert (forallb (fun ax => smem ax (dkeys sh)) S = true); [|now rewrite H].
    apply forallb_forall. intros ax Hax. apply smem_In. auto. }
  destruct (match axis with Some _ => _ | None => false end); [discriminate|]. clear G.
  assert (Po : Permutation (s_axes o) (s_axes r)) by (apply NoDup_Permutation; [apply Wo|apply Wr|exact So]).
  assert (IO : forall ax, In ax (s_axes o) <-> In ax (dkeys sh) /\ (keepdims = true \/ smem ax S = false)).
  { intros ax. split.
    - intros H. apply (Permutation_in _ Po) in H. rewrite AXr in H. destruct keepdims; [auto|].
      apply filter_In in H as [H1 H2]. apply negb_true_iff in H2. auto.
    - intros [H1 H2]. apply (Permutation_in _ (Permutation_sym Po)). rewrite AXr. destruct keepdims; auto.
      apply filter_In. destruct H2 as [H2|H2]; [discriminate|]. now rewrite H2. }
  set (L := if keepdims then s_axes o else s_axes o ++ filter (fun ax => negb (smem ax (s_axes o))) (dkeys sh)).
  assert (PL : Permutation (dkeys sh) L).
  { apply NoDup_Permutation; auto.
    - unfold L. destruct keepdims; [apply Wo|]. apply NoDup_app_intro; [apply Wo|now apply NoDup_filter|].
      intros x H1 H2. apply filter_In in H2 as [_ H2]. apply smem_In in H1. rewrite H1 in H2. discriminate.
    - intros x. unfold L. destruct keepdims; [rewrite IO; tauto|].
      rewrite in_app_iff, filter_In, IO. split; [|tauto]. intros H.
      destruct (smem x (s_axes o)) eqn:Ex; [|auto]. apply smem_In in Ex. apply IO in Ex. auto. }
  assert (NL : NoDup L) by (eapply Permutation_NoDup; eauto).
  assert (IL : forall x, In x L <-> In x (dkeys sh)).
  { intros x. split; apply Permutation_in; auto using Permutation_sym. }
  assert (ISL : incl S L) by (intros x Hx; apply IL; auto).
  rewrite mapM_index_of by auto. cbn [bind].
  (* the mask *)
  assert (Nws : Forall (fun s : shape => NoDup (dkeys s)) (sshape a :: match w with Some o => op_shapes [o] | None => [] end)).
  { constructor; [now apply wf_nodup|]. destruct w; [|constructor]. apply op_shapes_nodup. repeat constructor; auto. }
  assert (BD := broadcast_shapes_bound _ _ Nws Eb). rewrite Forall_forall in BD.
  assert (MM : exists mo, match w with Some m => m' <- op_aligned L m ;; Ok (Some m') | None => Ok None end = Ok mo /\
     match w, mo with
     | Some m, Some m' => (forall e, bget m' (map e L) = op_at m e) /\
         bto_rev (rev (nshape m')) (rev (map (size_of (sshape a)) L)) = true
     | None, None => True
     | _, _ => False
     end).
  { destruct w as [m|]; [|exists None; auto]. specialize (Ww m eq_refl). destruct (MC m eq_refl) as [_ M].
    destruct m as [b|x]; cbn [op_aligned op_wf op_shape] in *.
    - destruct (align_sub b L) as [n (M1 & M2 & _)]; auto.
      + intros ax Hax. apply IL. apply (BD (sshape b)); [simpl; auto|]. now rewrite wf_keys.
      + rewrite M1. cbn [bind]. exists (Some n). split; auto. split.
        * intros e. now apply bget_aligned.
        * rewrite M2. apply (bto_sizes (asize b)). intros ax _. apply M.
    - exists (Some (scalar x)). split; auto. }
  destruct MM as [mo [-> MO]]. cbn [bind].
  assert (IaL : incl (s_axes a) L) by (intros x Hx; apply IL; auto).
  destruct (align_sub a L Wa NL IaL) as [n (N1 & N2 & N3)]. rewrite N1. cbn [bind].
  change (nshape n = map (size_of (sshape a)) L) in N2.
  unfold np_reduce.
  assert (FL : map (fun p => nmem p (map (fun ax => spos ax L) S)) (seq 0 (ndim n)) = map (fun ax => smem ax S) L).
  { unfold ndim. rewrite N2, map_length. now apply flags_named. }
  rewrite FL, N2, !pick_map, eqb_true_filter, eqb_false_filter.
  rewrite (proj2 (nnodupb_spos L S ISL) NS). cbn [negb].
  assert (EM : match mo with Some m => identity && bto_rev (rev (nshape m)) (rev (map (size_of (sshape a)) L)) | None => true end = true).
  { destruct w as [m|], mo as [m'|]; try contradiction; auto. destruct MO as [_ ->].
    destruct (MC m eq_refl) as [-> _]. reflexivity. }
  rewrite EM. cbn [negb].
  assert (FK : filter (fun ax => negb (smem ax S)) L = if keepdims then filter (fun ax => negb (smem ax S)) L else s_axes o).
  { destruct keepdims; auto. unfold L. rewrite filter_app.
    rewrite (filter_none _ (filter _ _)).
    - rewrite app_nil_r. apply filter_all. intros x Hx. apply IO in Hx as [_ [Hx|Hx]]; [discriminate|]. now rewrite Hx.
    - intros x Hx. apply filter_In in Hx as [H1 H2]. apply negb_false_iff. apply negb_true_iff in H2.
      destruct (smem x S) eqn:Ex; auto. assert (In x (s_axes o)) by (apply IO; auto). apply smem_In in H. congruence. }
  (* sizes *)
  assert (TS : negb identity && (prod (map (size_of (sshape a)) (filter (fun ax => smem ax S) L)) =? 0) &&
     negb (prod (map (size_of (sshape a)) (filter (fun ax => negb (smem ax S)) L)) =? 0) = false).
  { destruct identity; auto. cbn [negb andb].
    destruct w as [m|]; [destruct (MC m eq_refl); discriminate|].
    change (broadcast_shapes [sshape a]) with (Ok (sshape a)) in Eb. injection Eb as <-.
    assert (P1 : prod (map (size_of (sshape a)) (filter (fun ax => smem ax S) L)) = total_size (sshape a) S).
    { rewrite <- prod_total_size by auto. apply prod_perm, Permutation_map, filter_smem_perm; auto. }
    assert (P2 : prod (map (size_of (sshape a)) (filter (fun ax => negb (smem ax S)) L)) =
                 total_size (sshape a) (filter (fun ax => negb (smem ax S)) (dkeys (sshape a)))).
    { rewrite <- prod_total_size by (intros x Hx; apply filter_In in Hx; tauto).
      apply prod_perm, Permutation_map. apply NoDup_Permutation; try now apply NoDup_filter.
      intros x. rewrite !filter_In, IL. tauto. }
    rewrite P1, P2. destruct TC as [H|[H|H]]; [discriminate| |].
    - apply Nat.eqb_neq in H. rewrite H. reflexivity.
    - rewrite H. simpl. now rewrite andb_false_r. }
  rewrite TS. cbn [option_map].
  set (rs := if keepdims then _ else _).
  assert (RSH : rs = map (fun ax => if smem ax S then 1 else size_of (sshape a) ax) (s_axes o)).
  { unfold rs. destruct keepdims.
    - unfold L. clear. induction (s_axes o) as [|x l IH]; simpl; congruence.
    - rewrite FK. apply map_ext_in. intros ax Hax. apply IO in Hax as [_ [Hax|Hax]]; [discriminate|]. now rewrite Hax. }
  assert (SO : nshape (s_nd o) = rs <-> same_shape (sshape o) (sshape r)).
  { rewrite RSH, <- map_asize by auto. split.
    - intros H ax k. rewrite Szr, <- So. assert (H' : forall x, In x (s_axes o) -> asize o x = if smem x S then 1 else size_of (sshape a) x).
      { clear - H. induction (s_axes o) as [|y l IH]; intros x [].
        - subst. injection H as H _. exact H.
        - injection H as _ H. auto. }
      split.
      + intros Hin. assert (Hk : In ax (s_axes o)). { rewrite <- wf_keys by auto. apply (in_map fst) in Hin. exact Hin. }
        split; auto. rewrite <- H' by auto. rewrite asize_size_of. symmetry. apply size_of_In; auto. now apply wf_nodup.
      + intros [Hin ->]. rewrite <- H' by auto. rewrite <- wf_keys in Hin by auto. apply dget_Some_key in Hin as [v Hv].
        unfold asize. rewrite Hv. now apply dget_In.
    - intros H. apply map_ext_in. intros ax Hax. rewrite asize_size_of.
      apply size_of_In; [now apply wf_nodup|]. apply H. apply Szr. split; auto. apply (Permutation_in _ Po Hax). }
  split.
  2: { intros H. destruct (idx_eqb (nshape (s_nd o)) rs) eqn:Ei; [|reflexivity].
       apply idx_eqb_true in Ei. exfalso. apply H, SO, Ei. }
  intros SS. apply SO in SS. clear SO. assert (SO := SS). clear SS.
  rewrite SO, idx_eqb_refl. cbn [negb bind].
  eexists. split; [reflexivity|]. split; [|split].
  - split; [apply Wo|]. cbn [s_axes s_nd nshape]. rewrite <- SO. apply Wo.
  - unfold sshape. cbn [s_axes s_nd nshape]. now rewrite SO.
  - intros e. rewrite (RS S e (Permutation_refl _)). unfold at_ at 1. cbn [s_nd s_axes nget].
    assert (KK : (if keepdims then pick false (map (fun ax => smem ax S) L) (map e (s_axes o))
                 else map e (s_axes o)) = map e (filter (fun ax => negb (smem ax S)) L)).
    { rewrite FK. unfold L. destruct keepdims; auto. rewrite pick_map, eqb_false_filter. reflexivity. }
    rewrite KK.
    assert (EL := np_reduce_elements a n L S (sshape a)
       (fun idx => match mo with Some m => bget m idx | None => true end)
       (fun e' => match w with Some o => op_at o e' | None => true end) e NL ISL N2).
    cbv zeta in EL. rewrite FL, N2, pick_map, eqb_true_filter in EL.
    transitivity (f (map (at_ a) (filter (fun e' => match w with Some o => op_at o e' | None => true end)
                             (fibre (sshape a) (filter (fun ax => smem ax S) L) e)))).
    + f_equal. apply EL; [intros; apply N3|]. intros e'. destruct w, mo; try contradiction; auto. apply MO.
    + apply fibre_symmetric; auto using NoDup_filter, filter_smem_perm.
Qed.
