(** Facts about functions along one axis. *)
From Coq Require Import String List Arith ZArith Bool Lia Permutation.
From Verif Require Import Base BaseFacts Numpy NumpyFacts Shapes Scalar Reorder Elementwise Reduce Along Spec
     ShapesFacts AlignFacts GetitemFacts SetitemFacts ReorderFacts ElementwiseFacts ReduceFacts.
Import ListNotations.
Open Scope nat_scope.
Open Scope list_scope.

Lemma set_nth_length {A} p (x : A) l : length (set_nth p x l) = length l.
Proof. revert p; induction l; intros [|p]; simpl; auto. Qed.

Lemma map_set_env_notin (e : env) ax j l : ~ In ax l -> map (set_env e ax j) l = map e l.
Proof.
  intros H. apply map_ext_in. intros y Hy. unfold set_env. destruct (String.eqb_spec y ax); auto. subst. contradiction.
Qed.

Lemma set_nth_named (e : env) ax j axes : NoDup axes -> In ax axes ->
  set_nth (spos ax axes) j (map e axes) = map (set_env e ax j) axes.
Proof.
  induction axes as [|y l IH]; simpl; [tauto|]. intros N H. inversion N; subst.
  destruct (String.eqb_spec ax y); simpl.
  - subst. rewrite map_set_env_notin by auto. unfold set_env. now rewrite String.eqb_refl.
  - destruct H as [->|H]; [congruence|]. rewrite IH by auto. f_equal. unfold set_env.
    destruct (String.eqb_spec y ax); auto. congruence.
Qed.

Lemma nth_named {A} (f : string -> A) ax axes d : In ax axes -> nth (spos ax axes) (map f axes) d = f ax.
Proof.
  induction axes as [|y l IH]; simpl; [tauto|]. intros H.
  destruct (String.eqb_spec ax y); [congruence|]. destruct H as [->|H]; [congruence|]. auto.
Qed.

Lemma nth_shape {A} (a : sarr A) ax : wf a -> In ax (s_axes a) ->
  nth (spos ax (s_axes a)) (nshape (s_nd a)) 0 = size_of (sshape a) ax.
Proof. intros W H. rewrite <- map_asize by auto. rewrite nth_named by auto. apply asize_size_of. Qed.

Lemma line_named {A} (a : sarr A) ax e : wf a -> In ax (s_axes a) ->
  np_line (s_nd a) (spos ax (s_axes a)) (map e (s_axes a)) = line a ax e.
Proof.
  intros W H. unfold np_line, line. rewrite nth_shape by auto. apply map_ext. intros j.
  rewrite set_nth_named by (auto; apply W). reflexivity.
Qed.

Lemma set_nth_shape {A} (a : sarr A) ax n : wf a -> In ax (s_axes a) ->
  combine (s_axes a) (set_nth (spos ax (s_axes a)) n (nshape (s_nd a))) = resized (sshape a) ax n.
Proof.
  intros [N L] H. unfold sshape, resized. revert N L H. generalize (s_axes a) (nshape (s_nd a)).
  induction l as [|y l IH]; intros [|m s] N L H; simpl in *; try discriminate; auto.
  injection L as L. inversion N; subst. destruct (String.eqb_spec ax y); simpl.
  - subst. rewrite String.eqb_refl. f_equal. symmetry. rewrite <- map_id. apply map_ext_in. intros [k v] Hin.
    simpl. destruct (String.eqb_spec k y); auto. subst. apply in_combine_l in Hin. contradiction.
  - destruct (String.eqb_spec y ax); [congruence|]. f_equal. apply IH; auto. destruct H; [congruence|auto].
Qed.

Lemma dkeys_resized sh ax n : dkeys (resized sh ax n) = dkeys sh.
Proof. unfold resized, dkeys. rewrite map_map. reflexivity. Qed.

Lemma resized_same sh ax n : dget sh ax = Some n -> NoDup (dkeys sh) -> resized sh ax n = sh.
Proof.
  intros H N. unfold resized. rewrite <- map_id. apply map_ext_in. intros [k v] Hin. simpl.
  destruct (String.eqb_spec k ax); auto. subst. apply dget_NoDup in Hin; auto. congruence.
Qed.

Lemma dget_resized sh ax n ax' : dget (resized sh ax n) ax' =
  match dget sh ax' with Some m => Some (if String.eqb ax' ax then n else m) | None => None end.
Proof.
  induction sh as [|[k v] sh IH]; simpl; auto. destruct (String.eqb_spec ax' k); auto. subst. reflexivity.
Qed.

(** a function along a named axis *)
Lemma along_named {A B} len (g : list A -> nat -> B) (a : sarr A) ax : wf a -> In ax (s_axes a) ->
  let r := mkS (np_along len g (s_nd a) (spos ax (s_axes a))) (s_axes a) in
  wf r /\ sshape r = resized (sshape a) ax (len (size_of (sshape a) ax)) /\
  forall e, at_ r e = g (line a ax e) (e ax).
Proof.
  intros W H r. split; [|split].
  - split; [apply W|]. unfold r. cbn [s_axes s_nd nshape np_along]. rewrite set_nth_length. apply W.
  - unfold r, sshape at 1. cbn [s_axes s_nd nshape np_along]. rewrite nth_shape by auto. now apply set_nth_shape.
  - intros e. unfold r, at_. cbn [s_axes s_nd nget np_along]. rewrite line_named, nth_named by auto. reflexivity.
Qed.

(** ** Cumulative functions *)

Theorem cumulative_spec {A B} (scan : list A -> B) (initial : bool) (a : sarr A) (axis : option (list string)) :
  wf a ->
  let S := match axis with Some l => l | None => s_axes a end in
  (forall ax, S = [ax] -> In ax (s_axes a) ->
     exists r, na_cumulative scan initial a axis None = Ok r /\ wf r /\
       sshape r = resized (sshape a) ax (size_of (sshape a) ax + if initial then 1 else 0) /\
       forall e, at_ r e = scan (firstn (e ax + if initial then 0 else 1) (line a ax e))) /\
  (~ (exists ax, S = [ax] /\ In ax (s_axes a)) -> na_cumulative scan initial a axis None = Err ValueError).
Proof.
  intros W S. unfold na_cumulative.
  replace (axis_normalized a axis) with S by (destruct axis; reflexivity).
  split.
  - intros ax E H. rewrite E. rewrite (wf_keys a) by auto.
    assert (G : match axis with Some _ => negb (smem ax (s_axes a)) | None => false end = false).
    { destruct axis; auto. apply smem_In in H. now rewrite H. }
    rewrite G. unfold index_of. rewrite (sindex_In _ _ H). cbn [bind].
    assert (P : spos ax (s_axes a) < ndim (s_nd a)).
    { unfold ndim. destruct W as [_ L]. rewrite <- L. now apply spos_lt. }
    apply Nat.ltb_lt in P. rewrite P. cbn [negb].
    set (g := fun (l : list A) (i : nat) => scan (firstn (if initial then i else Datatypes.S i) l)).
    set (len := fun n => if initial then Datatypes.S n else n).
    destruct (along_named len g a ax W H) as (W' & Sh & El).
    rewrite mk_sarr_intro; [|apply W'|apply W'].
    eexists. split; [reflexivity|]. split; [exact W'|]. split.
    + rewrite Sh. f_equal. unfold len. destruct initial; lia.
    + intros e. rewrite El. unfold g. do 2 f_equal. destruct initial; lia.
  - intros H. destruct S as [|ax [|]] eqn:ES; auto.
    destruct axis as [l|].
    + destruct (smem ax (dkeys (sshape a))) eqn:G; auto. exfalso. apply H. exists ax. split; auto.
      apply smem_In in G. now rewrite wf_keys in G.
    + exfalso. apply H. exists ax. split; auto. unfold S in ES. rewrite ES. simpl; auto.
Qed.

(** ** Writing into an existing array *)

Lemma bind_err {A B} (r : res A) (f : A -> res B) e :
  bind r f = Err e -> r = Err e \/ exists x, r = Ok x /\ f x = Err e.
Proof. destruct r; simpl; [right; eauto|left; congruence]. Qed.

Lemma mapM_index_of_VE (l axes : list string) e : mapM (fun ax => index_of ax axes) l = Err e -> e = ValueError.
Proof.
  intros H. destruct (incl_sdec l axes) as [I|I].
  - rewrite mapM_index_of in H by auto. discriminate.
  - destruct (mapM_index_of_err l axes I) as [e' [H' ->]]. congruence.
Qed.

Lemma align_VE {A} (a : sarr A) axes e : ndarray_aligned a axes = Err e -> e = ValueError.
Proof.
  unfold ndarray_aligned. destruct (axes_eqb _ _); [discriminate|].
  cbv zeta. intros H.
  apply bind_err in H as [H|[x [_ H]]]; [now apply mapM_index_of_VE in H|discriminate].
Qed.

Lemma transpose_err {A} (a : sarr A) axes e : na_transpose a axes = Err e -> e = ValueError.
Proof.
  unfold na_transpose. intros H. apply bind_err in H as [H|[a' [_ H]]].
  - destruct axes; [|discriminate]. unfold add_axes in H.
    apply bind_err in H as [H|[n [_ H]]]; [now apply align_VE in H|now apply mk_sarr_err in H].
  - apply bind_err in H as [H|[p [_ H]]]; [now apply mapM_index_of_VE in H|].
    apply bind_err in H as [H|[n [_ H]]]; [|now apply mk_sarr_err in H].
    unfold np_transpose in H. destruct (_ && _); congruence.
Qed.

Lemma wf_iota {A} (a : sarr A) : wf a -> wf (iota_of a).
Proof. intros [H1 H2]. split; auto. Qed.

Lemma Forall2_length {A B} (R : A -> B -> Prop) l l' : Forall2 R l l' -> length l = length l'.
Proof. induction 1; simpl; auto. Qed.

Lemma bidx_same sh idx : length idx = length sh -> Forall2 lt idx sh -> bidx sh idx = idx.
Proof.
  intros L F. unfold bidx. rewrite L, Nat.sub_diag. cbn [skipn].
  clear L. induction F; simpl; auto. rewrite IHF. f_equal. destruct (Nat.eqb_spec y 1); auto. lia.
Qed.

Theorem write_out_spec {A} (o : sarr A) axes (r : nd A) :
  wf o -> wf (mkS r axes) ->
  let ok := incl (s_axes o) axes /\ forall ax, In ax axes -> size_of (sshape (mkS r axes)) ax = size_of (sshape o) ax in
  (ok -> exists r', write_out o axes r = Ok r' /\ wf r' /\ sshape r' = sshape o /\
           forall e, inside e (sshape (mkS r axes)) -> at_ r' e = at_ (mkS r axes) e) /\
  (~ ok -> write_out o axes r = Err ValueError).
Proof.
  intros Wo Wr ok. unfold write_out.
  assert (Wi := wf_iota o Wo).
  assert (TS := transpose_some_success (iota_of o) axes Wi).
  destruct (na_transpose (iota_of o) (Some axes)) as [view|er] eqn:E; cbn [bind].
  2: { apply transpose_err in E as ->. split; [|reflexivity]. intros [H _]. exfalso.
       destruct (proj2 TS) as [v Hv]; [split; auto; apply Wr|discriminate]. }
  destruct (transpose_some _ _ _ Wi E) as (Wv & Av & Sv & Ev).
  assert (I : incl (s_axes o) axes) by (apply TS; eauto).
  assert (SZ : forall ax, In ax axes -> size_of (sshape view) ax = size_of (sshape o) ax).
  { intros ax Hax. destruct (in_dec string_dec ax (s_axes o)) as [Hin|Hin].
    - assert (H : In (ax, size_of (sshape o) ax) (sshape view)).
      { apply Sv. left. change (sshape (iota_of o)) with (sshape o). rewrite <- wf_keys in Hin by auto.
        apply dget_Some_key in Hin as [k Hk]. unfold size_of. rewrite Hk. now apply dget_In. }
      apply size_of_In in H; auto. now apply wf_nodup.
    - assert (H : In (ax, 1) (sshape view)) by (apply Sv; right; auto).
      apply size_of_In in H; [|now apply wf_nodup]. rewrite H. symmetry.
      rewrite <- asize_size_of. now apply asize_absent. }
  assert (S1 : nshape (s_nd view) = map (size_of (sshape o)) axes).
  { rewrite <- map_asize, Av by auto. apply map_ext_in. intros. rewrite asize_size_of. auto. }
  assert (S2 : nshape r = map (size_of (sshape (mkS r axes))) axes).
  { assert (H := map_asize (mkS r axes) Wr). cbn [s_axes s_nd] in H. rewrite <- H. apply map_ext. intros. apply asize_size_of. }
  destruct (idx_eqb (nshape (s_nd view)) (nshape r)) eqn:Ei; cbn [negb].
  2: { split; [|reflexivity]. intros [_ H]. exfalso. assert (nshape (s_nd view) = nshape r); [|apply idx_eqb_true in H0; congruence].
       rewrite S1, S2. apply map_ext_in. intros. symmetry. auto. }
  apply idx_eqb_true in Ei.
  split; [intros _|intros H; exfalso; apply H].
  2: { split; auto. intros ax Hax. rewrite S1, S2 in Ei. clear - Ei Hax. revert Ei Hax.
       generalize (size_of (sshape o)) (size_of (sshape (mkS r axes))). intros f g. induction axes; simpl; [tauto|].
       intros E [<-|H]; [congruence|]. injection E. auto. }
  assert (ND : ndim r <= ndim (s_nd view)) by (unfold ndim; rewrite Ei; auto).
  destruct (assign_intro (s_nd o) (s_nd view) r) as [b Hb]; auto.
  { rewrite Ei. apply (proj2 (bto_Forall2 (nshape r) (nshape r) eq_refl)).
    clear. induction (nshape r); constructor; auto. }
  rewrite Hb. cbn [bind]. eexists. split; [reflexivity|].
  destruct (assign_ok _ _ _ _ ND Hb) as (_ & Sb & B).
  split; [|split].
  - destruct Wo as [W1 W2]. split; auto. cbn [s_axes s_nd]. now rewrite Sb.
  - unfold sshape. cbn [s_axes s_nd]. now rewrite Sb.
  - intros e He. unfold at_ at 1. cbn [s_axes s_nd].
    assert (IB : inb (map e axes) (nshape r)) by (now apply (inside_inb (mkS r axes))).
    assert (VE : forall e' : env, nget (s_nd view) (map e' axes) = map e' (s_axes o)).
    { intros e'. specialize (Ev e'). unfold at_ in Ev. rewrite Av in Ev. exact Ev. }
    assert (BR : forall p, inb p (nshape r) -> bget r p = nget r p).
    { intros p Hp. unfold bget. rewrite bidx_same; auto. unfold inb in Hp. eapply Forall2_length; eauto. }
    destruct (B (map e (s_axes o))) as [[p (P1 & P2 & P3)]|[N _]].
    + rewrite P3. rewrite Ei in P1. rewrite BR by auto. unfold at_. cbn [s_axes s_nd]. f_equal.
      assert (LP : length p = length axes).
      { unfold inb in P1. apply Forall2_length in P1. rewrite P1, S2, map_length. auto. }
      destruct Wr as [NDa _]. cbn [s_axes] in NDa.
      rewrite <- (map_env_of axes p NDa LP) in P1, P2 |- *. rewrite VE in P2.
      apply map_ext_in. intros ax Hax.
      destruct (in_dec string_dec ax (s_axes o)) as [Hin|Hin].
      * clear - P2 Hin. induction (s_axes o); simpl in *; [tauto|]. injection P2 as P2 P3. destruct Hin; subst; auto.
      * assert (One : size_of (sshape (mkS r axes)) ax = 1).
        { rewrite S1, S2 in Ei. assert (H : size_of (sshape o) ax = size_of (sshape (mkS r axes)) ax).
          { clear - Ei Hax. revert Ei. generalize (size_of (sshape o)) (size_of (sshape (mkS r axes))). intros f g.
            induction axes; simpl in *; [tauto|]. intros E. injection E as E1 E2. destruct Hax; subst; auto. }
          rewrite <- H, <- asize_size_of. now apply asize_absent. }
        assert (LT : forall e' : env, inb (map e' axes) (nshape r) -> e' ax = 0).
        { intros e' H. rewrite S2 in H. assert (e' ax < size_of (sshape (mkS r axes)) ax); [|lia].
          clear - H Hax. revert H. generalize (size_of (sshape (mkS r axes))). intros f H. unfold inb in H.
          induction axes; simpl in *; [tauto|]. inversion H; subst. destruct Hax; subst; auto. }
        rewrite (LT e), (LT (env_of axes p)); auto.
    + exfalso. apply (N (map e axes)); [now rewrite Ei|]. apply VE.
Qed.

(** ** Concatenation *)

Lemma dset_resized sh ax n : NoDup (dkeys sh) -> In ax (dkeys sh) -> dset sh ax n = resized sh ax n.
Proof.
  induction sh as [|[k v] sh IH]; simpl; [tauto|]. intros N H. inversion N; subst.
  destruct (String.eqb_spec ax k).
  - subst. rewrite String.eqb_refl. f_equal. unfold resized. rewrite <- (map_id sh) at 1. apply map_ext_in. intros [k' v'] Hin. simpl.
    destruct (String.eqb_spec k' k); auto. subst. exfalso. apply H2. apply (in_map fst) in Hin. exact Hin.
  - destruct (String.eqb_spec k ax); [congruence|]. f_equal. apply IH; auto. destruct H; [congruence|auto].
Qed.

Lemma cat_get_named {A} axis axes (b : sarr A) (bs : list (sarr A)) k c i idx :
  Forall (fun a => wf a /\ s_axes a = axes) (b :: bs) -> In axis axes ->
  nth_error (b :: bs) k = Some c -> i < size_of (sshape c) axis ->
  cat_get (s_nd b) (map s_nd bs) (spos axis axes)
    (list_sum (firstn k (map (fun a => size_of (sshape a) axis) (b :: bs))) + i) idx
  = nget (s_nd c) (set_nth (spos axis axes) i idx).
Proof.
  intros F Hax. revert b k F. induction bs as [|b' bs IH]; intros b k F Hk Hi.
  - destruct k as [|k]; [|destruct k; discriminate]. simpl in Hk. injection Hk as <-. simpl. reflexivity.
  - inversion F as [|? ? [Wb Ab] F']; subst. cbn [map cat_get].
    rewrite nth_shape by auto. destruct k as [|k].
    + simpl in Hk. injection Hk as <-. cbn [firstn list_sum fold_right plus].
      apply Nat.ltb_lt in Hi. now rewrite Hi.
    + simpl in Hk. cbn [firstn list_sum fold_right]. 
      match goal with |- context [?x <? ?y] => destruct (Nat.ltb_spec x y) as [L|L] end; [lia|].
      rewrite <- (IH b' k); auto.
      f_equal. change (fold_right Nat.add 0) with list_sum. change (fold_right plus 0) with list_sum.
      cbn [map firstn]. lia.
Qed.

Lemma np_concatenate_named {A} axis axes proto (bs : list (sarr A)) :
  bs <> [] -> NoDup axes -> In axis axes ->
  Forall (fun a => wf a /\ sshape a = resized proto axis (size_of (sshape a) axis)) bs -> dkeys proto = axes ->
  exists n, np_concatenate (map s_nd bs) (spos axis axes) = Ok n /\
    wf (mkS n axes) /\
    sshape (mkS n axes) = resized proto axis (list_sum (map (fun a => size_of (sshape a) axis) bs)) /\
    forall k c e, nth_error bs k = Some c -> e axis < size_of (sshape c) axis ->
      at_ (mkS n axes) (set_env e axis (list_sum (firstn k (map (fun a => size_of (sshape a) axis) bs)) + e axis)) = at_ c e.
Proof.
  intros NE ND Hax F Kp. destruct bs as [|b bs]; [congruence|]. cbn [map np_concatenate].
  assert (AX : Forall (fun a => wf a /\ s_axes a = axes) (b :: bs)).
  { eapply Forall_impl; [|exact F]. cbv beta. intros a [W Sa]. split; auto. rewrite <- (wf_keys a), Sa, dkeys_resized by auto. auto. }
  assert (NS : forall a : sarr A, wf a -> s_axes a = axes -> sshape a = resized proto axis (size_of (sshape a) axis) ->
     forall m, combine axes (set_nth (spos axis axes) m (nshape (s_nd a))) = resized proto axis m).
  { intros a W Aa Sa m. rewrite <- Aa, set_nth_shape by (auto; congruence). rewrite Sa.
    unfold resized. rewrite map_map. apply map_ext. intros [x v]. simpl. destruct (String.eqb x axis); auto. }
  assert (LEN : forall a : sarr A, wf a -> s_axes a = axes -> length (nshape (s_nd a)) = length axes).
  { intros a [_ L] <-. auto. }
  inversion F as [|? ? [Wb Sb] F']; subst. inversion AX as [|? ? [_ Ab] AX']; subst. rewrite <- Ab in *.
  assert (G : forallb (fun c => idx_eqb (set_nth (spos axis (s_axes b)) 0 (nshape c)) (set_nth (spos axis (s_axes b)) 0 (nshape (s_nd b))))
            (map s_nd bs) = true).
  { apply forallb_forall. intros x Hx. apply in_map_iff in Hx as [a [<- Ha]]. apply idx_eqb_true.
    rewrite Forall_forall in F', AX'. destruct (F' a Ha) as [Wa Sa]. destruct (AX' a Ha) as [_ Aa].
    assert (E1 := NS a Wa Aa Sa 0). assert (E2 := NS b Wb eq_refl Sb 0).
    assert (V : forall (l : list string) (v w : list nat), length v = length l -> length w = length l -> combine l v = combine l w -> v = w).
    { clear. induction l; intros [|x v] [|y w]; simpl; try discriminate; auto. intros. injection H1 as -> H1. f_equal. apply IHl; auto. }
    apply (V (s_axes b)); rewrite ?set_nth_length; auto; congruence. }
  rewrite G. eexists. split; [reflexivity|].
  assert (SM : map (fun b0 : nd A => nth (spos axis (s_axes b)) (nshape b0) 0) (s_nd b :: map s_nd bs) =
               map (fun a => size_of (sshape a) axis) (b :: bs)).
  { change (s_nd b :: map s_nd bs) with (map s_nd (b :: bs)). rewrite map_map. apply map_ext_in. intros a Ha.
    rewrite Forall_forall in AX. destruct (AX a Ha) as [Wa Aa]. rewrite <- Aa. apply nth_shape; auto. congruence. }
  cbn [map] in SM |- *. rewrite SM. split; [|split].
  - split; auto. cbn [s_nd s_axes nshape]. rewrite set_nth_length. symmetry. apply LEN; auto.
  - unfold sshape at 1. cbn [s_nd s_axes nshape]. apply NS; auto.
  - intros k c e Hk Hi. unfold at_ at 1. cbn [s_nd s_axes nget]. rewrite nth_named by auto.
    unfold set_env at 1. rewrite String.eqb_refl. rewrite (cat_get_named axis (s_axes b) b bs k c) by auto.
    rewrite set_nth_named by auto. rewrite Forall_forall in AX. destruct (AX c) as [_ Ac]; [eapply nth_error_In; eauto|].
    unfold at_. rewrite Ac. f_equal. apply map_ext_in. intros x Hx. unfold set_env.
    destruct (String.eqb_spec x axis); subst; auto.
Qed.

Lemma normalize_all_wf {A} (l : list (operand A)) : Forall op_wf l -> Forall wf (map normalize l).
Proof. induction 1; simpl; constructor; auto. now apply normalize_wf. Qed.

Lemma broadcast_shapes_fit l sh s ax n :
  Forall (fun s => NoDup (dkeys s)) l -> broadcast_shapes l = Ok sh -> In s l -> dget s ax = Some n ->
  n = 1 \/ In (ax, n) sh.
Proof.
  intros N E Hs H. destruct (broadcast_shapes_ok _ _ N E) as (ND & K & SZ).
  assert (B := broadcast_shapes_bound _ _ N E). rewrite Forall_forall in B.
  assert (Hax : In ax (dkeys sh)). { apply (B s Hs). apply dget_Some_key. eauto. }
  apply dget_Some_key in Hax as [m Hm]. apply dget_In in Hm. assert (Hm' := Hm). apply SZ in Hm as [_ [C _]].
  destruct (C n); auto.
  - apply sizes_of_In. eauto.
  - subst. auto.
Qed.

Lemma concatenate_gen {A} (arrays : list (operand A)) (axis : string) (out : option (sarr A)) :
  Forall op_wf arrays ->
  let l := map normalize arrays in
  let shapes := map (fun a => resized (sshape a) axis 1) l in
  let sizes := map (fun a => size_of (sshape a) axis) l in
  let ok := l <> [] /\ (forall a, In a l -> In axis (s_axes a)) /\ ~ conflict shapes in
  (ok -> exists r sh, broadcast_shapes shapes = Ok sh /\
      na_concatenate arrays axis out =
        match out with Some o => write_out o (s_axes r) (s_nd r) | None => Ok r end /\ wf r /\
      sshape r = resized sh axis (list_sum sizes) /\
      forall k a e, nth_error l k = Some a -> e axis < size_of (sshape a) axis ->
        at_ r (set_env e axis (list_sum (firstn k sizes) + e axis)) = bat a e) /\
  (~ ok -> na_concatenate arrays axis out = Err ValueError).
Proof.
  intros Wl l shapes sizes ok. assert (W := normalize_all_wf _ Wl). fold l in W.
  assert (WF : forall a, In a l -> wf a) by (now apply Forall_forall).
  unfold na_concatenate. fold l.
  destruct (existsb (fun a => negb (smem axis (dkeys (sshape a)))) l) eqn:E.
  { split; [|reflexivity]. intros (_ & H & _). exfalso. apply existsb_exists in E as [a [Ha E]].
    apply negb_true_iff in E. specialize (H a Ha). rewrite <- wf_keys in H by auto. apply smem_In in H. congruence. }
  assert (HA : forall a, In a l -> In axis (s_axes a)).
  { intros a Ha. rewrite <- wf_keys by auto. apply smem_In. destruct (smem axis (dkeys (sshape a))) eqn:G; auto.
    assert (X : existsb (fun a => negb (smem axis (dkeys (sshape a)))) l = true); [|congruence].
    apply existsb_exists. exists a. split; auto. now rewrite G. }
  assert (ES : map (fun a => dset (sshape a) axis 1) l = shapes).
  { apply map_ext_in. intros a Ha. apply dset_resized; [apply wf_nodup; auto|]. rewrite wf_keys; auto. }
  rewrite ES.
  assert (NS : Forall (fun s : shape => NoDup (dkeys s)) shapes).
  { apply Forall_forall. intros s Hs. apply in_map_iff in Hs as [a [<- Ha]]. rewrite dkeys_resized. apply wf_nodup; auto. }
  destruct (broadcast_shapes shapes) as [sh|er] eqn:EB; cbn [bind].
  2: { assert (X : er = ValueError) by (destruct (broadcast_shapes_total _ NS) as [[? H]|H]; congruence). subst.
       split; [|reflexivity]. intros (_ & _ & H). exfalso. apply H. apply broadcast_shapes_conflict; auto. }
  destruct (broadcast_shapes_ok _ _ NS EB) as (ND & K & SZ).
  assert (BD := broadcast_shapes_bound _ _ NS EB). rewrite Forall_forall in BD.
  (* the broadcast pieces *)
  assert (BS : exists bs,
    mapM (fun a => b <- na_broadcast_to a match dget (sshape a) axis with Some n => dset sh axis n | None => sh end false ;;
                   Ok (s_nd b)) l = Ok (map s_nd bs) /\
    Forall2 (fun a b => wf b /\ sshape b = resized sh axis (size_of (sshape a) axis) /\ forall e, at_ b e = bat a e) l bs).
  { assert (ONE : forall a, In a l -> exists b,
      na_broadcast_to a match dget (sshape a) axis with Some n => dset sh axis n | None => sh end false = Ok b /\
      (wf b /\ sshape b = resized sh axis (size_of (sshape a) axis) /\ forall e, at_ b e = bat a e)).
    { intros a Ha. assert (Hin := HA a Ha). rewrite <- wf_keys in Hin by auto.
      assert (Hs : In (resized (sshape a) axis 1) shapes) by (apply in_map_iff; eauto).
      assert (Ik : incl (dkeys (sshape a)) (dkeys sh)).
      { intros x Hx. apply (BD _ Hs). now rewrite dkeys_resized. }
      assert (Hx : dget (sshape a) axis = Some (size_of (sshape a) axis)).
      { apply dget_Some_key in Hin as [n Hn]. unfold size_of. now rewrite Hn. }
      rewrite Hx, dset_resized by auto.
      destruct (na_broadcast_to_intro a (resized sh axis (size_of (sshape a) axis))) as [b Hb]; auto.
      - now rewrite dkeys_resized.
      - rewrite dkeys_resized, <- wf_keys by auto. auto.
      - intros ax n Hn. destruct (String.eqb_spec ax axis).
        + subst. right. rewrite Hx in Hn. injection Hn as <-. apply dget_In. rewrite dget_resized.
          apply Ik in Hin. apply dget_Some_key in Hin as [m ->]. now rewrite String.eqb_refl.
        + destruct (broadcast_shapes_fit _ _ _ ax n NS EB Hs) as [->|H]; auto.
          * rewrite dget_resized, Hn. apply String.eqb_neq in n0. now rewrite n0.
          * right. apply dget_In. rewrite dget_resized. rewrite (dget_NoDup sh ax n) by auto.
            apply String.eqb_neq in n0. now rewrite n0.
      - exists b. split; auto. apply na_broadcast_to_ok in Hb as (_ & _ & Wb & Sb & Eb); auto.
        now rewrite dkeys_resized. }
    clear - ONE. induction l as [|a l IH]; [exists []; simpl; auto|].
    destruct IH as [bs [H1 H2]]; [intros; apply ONE; simpl; auto|].
    destruct (ONE a (or_introl eq_refl)) as [b [Hb Pb]]. exists (b :: bs). split; [|constructor; auto].
    simpl. rewrite Hb. simpl. simpl in H1. rewrite H1. reflexivity. }
  destruct BS as [bs [HM F2]]. 
  match goal with |- context [mapM ?f l] => replace (mapM f l) with (Ok (map s_nd bs)) by (symmetry; exact HM) end.
  cbn [bind].
  assert (D : l = [] \/ exists a0, In a0 l).
  { clear. generalize l. intros [|a0 l0]; [auto|right; exists a0; simpl; auto]. }
  destruct D as [El|[a0 Ha0]].
  { split; [intros (H & _); congruence|]. intros _.
    assert (Es : shapes = []) by (unfold shapes; now rewrite El).
    rewrite Es in EB. injection EB as <-. reflexivity. }
  assert (Hax : In axis (dkeys sh)).
  { apply (BD (resized (sshape a0) axis 1)).
    - apply in_map_iff. exists a0. split; auto.
    - rewrite dkeys_resized, wf_keys by (apply WF; auto). now apply HA. }
  unfold index_of. rewrite (sindex_In _ _ Hax). cbn [bind].
  assert (NEb : bs <> []). { intros ->. inversion F2 as [E0|]. rewrite <- E0 in Ha0. destruct Ha0. }
  assert (SZb : Forall2 (fun a b => size_of (sshape b) axis = size_of (sshape a) axis) l bs).
  { clear - F2 Hax. induction F2 as [|a b l bs (_ & Sb & _)]; constructor; auto. rewrite Sb. unfold size_of at 1.
    rewrite dget_resized. apply dget_Some_key in Hax as [m ->]. now rewrite String.eqb_refl. }
  assert (MZ : map (fun a => size_of (sshape a) axis) bs = sizes).
  { unfold sizes. clear - SZb. induction SZb; simpl; congruence. }
  destruct (np_concatenate_named axis (dkeys sh) sh bs) as [n (C1 & C2 & C3 & C4)]; auto.
  { clear - F2 SZb. induction F2 as [|a b l bs (Wb & Sb & _)]; constructor; inversion SZb; subst; auto.
    split; auto. congruence. }
  rewrite C1. cbn [bind]. rewrite mk_sarr_intro by (apply C2). rewrite MZ in *.
  split.
  - intros _. exists (mkS n (dkeys sh)), sh. split; [reflexivity|]. split; [reflexivity|]. split; auto. split; auto.
    intros k a e Hk Hi. assert (Hb : exists b, nth_error bs k = Some b /\ (size_of (sshape b) axis = size_of (sshape a) axis) /\ forall e, at_ b e = bat a e).
    { clear - F2 SZb Hk. revert k Hk. induction F2 as [|a' b' l bs (_ & _ & E)]; intros [|k] Hk; simpl in *; try discriminate; inversion SZb; subst.
      - injection Hk as ->. exists b'. auto.
      - auto. }
    destruct Hb as [b (B1 & B2 & B3)]. rewrite (C4 k b e B1) by lia. apply B3.
  - intros H. exfalso. apply H. split; [intros E0; rewrite E0 in Ha0; destruct Ha0|]. split; auto. intros C.
    apply (broadcast_shapes_conflict _ NS) in C. congruence.
Qed.

Theorem concatenate_spec {A} (arrays : list (operand A)) (axis : string) :
  Forall op_wf arrays ->
  let l := map normalize arrays in
  let shapes := map (fun a => resized (sshape a) axis 1) l in
  let sizes := map (fun a => size_of (sshape a) axis) l in
  let ok := l <> [] /\ (forall a, In a l -> In axis (s_axes a)) /\ ~ conflict shapes in
  (ok -> exists r sh, broadcast_shapes shapes = Ok sh /\
      na_concatenate arrays axis None = Ok r /\ wf r /\
      sshape r = resized sh axis (list_sum sizes) /\
      forall k a e, nth_error l k = Some a -> e axis < size_of (sshape a) axis ->
        at_ r (set_env e axis (list_sum (firstn k sizes) + e axis)) = bat a e) /\
  (~ ok -> na_concatenate arrays axis None = Err ValueError).
Proof. intros W. exact (concatenate_gen arrays axis None W). Qed.

Lemma write_out_res {A} (o r : sarr A) : wf o -> wf r ->
  (out_fits o r -> exists r', write_out o (s_axes r) (s_nd r) = Ok r' /\ wf r' /\ sshape r' = sshape o /\
           forall e, inside e (sshape r) -> at_ r' e = at_ r e) /\
  (~ out_fits o r -> write_out o (s_axes r) (s_nd r) = Err ValueError).
Proof.
  intros Wo Wr. assert (E : r = mkS (s_nd r) (s_axes r)) by (now destruct r).
  assert (H := write_out_spec o (s_axes r) (s_nd r) Wo). rewrite <- E in H. exact (H Wr).
Qed.

Theorem concatenate_out {A} (arrays : list (operand A)) (axis : string) (o r : sarr A) :
  Forall op_wf arrays -> wf o -> na_concatenate arrays axis None = Ok r ->
  (out_fits o r -> exists r', na_concatenate arrays axis (Some o) = Ok r' /\ wf r' /\ sshape r' = sshape o /\
           forall e, inside e (sshape r) -> at_ r' e = at_ r e) /\
  (~ out_fits o r -> na_concatenate arrays axis (Some o) = Err ValueError).
Proof.
  intros W Wo E. destruct (concatenate_gen arrays axis None W) as [H1 H2].
  destruct (concatenate_gen arrays axis (Some o) W) as [G1 G2].
  match type of H1 with (?P -> _) => set (ok := P) in * end.
  assert (D : ~ ~ ok). { intros N. specialize (H2 N). cbv beta iota in H2. congruence. }
  assert (DO : ok).
  { assert (D1 : map normalize arrays = [] \/ map normalize arrays <> []) by (destruct (map normalize arrays); [auto|right; discriminate]).
    destruct D1 as [D1|D1]; [exfalso; apply D; intros (N & _); contradiction|].
    split; auto. split.
    - intros a Ha. destruct (in_dec string_dec axis (s_axes a)); auto. exfalso. apply D. intros (_ & N & _). auto.
    - intros C. apply D. intros (_ & _ & N). contradiction. }
  destruct (H1 DO) as (r1 & sh & B & E1 & W1 & _). cbv beta iota in E1. assert (r1 = r) by congruence. subst r1.
  destruct (G1 DO) as (r2 & sh2 & B2 & E2 & W2 & S2 & El2). cbv beta iota in E2.
  assert (Q : na_concatenate arrays axis (Some o) = write_out o (s_axes r) (s_nd r)).
  { clear - E E1. unfold na_concatenate in *.
    destruct (existsb _ _); [discriminate|]. destruct (broadcast_shapes _); cbn [bind] in *; [|discriminate].
    destruct (mapM _ _); cbn [bind] in *; [|discriminate]. destruct (index_of _ _); cbn [bind] in *; [|discriminate].
    destruct (np_concatenate _ _); cbn [bind] in *; [|discriminate]. apply mk_sarr_ok in E as [-> _]. reflexivity. }
  rewrite Q. now apply write_out_res.
Qed.

(** ** Stacking *)

Theorem stack_spec {A} (arrays : list (operand A)) (axis : string) :
  Forall op_wf arrays ->
  let l := map normalize arrays in
  let ok := l <> [] /\ (forall a, In a l -> ~ In axis (s_axes a)) /\ ~ conflict (map sshape l) in
  (ok -> exists r sh, broadcast_shapes (map sshape l) = Ok sh /\
      na_stack arrays axis None = Ok r /\ wf r /\
      sshape r = (axis, length l) :: sh /\
      forall k a e, nth_error l k = Some a -> e axis = k -> at_ r e = bat a e) /\
  (~ ok -> na_stack arrays axis None = Err ValueError).
Proof.
  intros Wl l ok. assert (W := normalize_all_wf _ Wl). fold l in W.
  assert (WF : forall a, In a l -> wf a) by (now apply Forall_forall).
  unfold na_stack. fold l.
  assert (NS : Forall (fun s : shape => NoDup (dkeys s)) (map sshape l)).
  { apply Forall_forall. intros s Hs. apply in_map_iff in Hs as [a [<- Ha]]. apply wf_nodup; auto. }
  destruct (broadcast_shapes (map sshape l)) as [sh|er] eqn:EB; cbn [bind].
  2: { assert (X : er = ValueError) by (destruct (broadcast_shapes_total _ NS) as [[? H]|H]; congruence). subst.
       split; [|reflexivity]. intros (_ & _ & H). exfalso. apply H. apply broadcast_shapes_conflict; auto. }
  destruct (broadcast_shapes_ok _ _ NS EB) as (ND & K & SZ).
  assert (BD := broadcast_shapes_bound _ _ NS EB). rewrite Forall_forall in BD.
  assert (KI : In axis (dkeys sh) <-> exists a, In a l /\ In axis (s_axes a)).
  { rewrite K, first_appearance_In, in_concat. split.
    - intros [s [Hs Hin]]. apply in_map_iff in Hs as [s' [<- Hs']]. apply in_map_iff in Hs' as [a [<- Ha]].
      exists a. split; auto. now rewrite wf_keys in Hin by auto.
    - intros [a [Ha Hin]]. exists (dkeys (sshape a)). split; [|now rewrite wf_keys by auto].
      apply in_map. now apply in_map. }
  destruct (smem axis (dkeys sh)) eqn:EM.
  { apply smem_In, KI in EM as [a [Ha Hin]]. split; [|reflexivity]. intros (_ & H & _). exfalso. eapply H; eauto. }
  assert (HA : forall a, In a l -> ~ In axis (s_axes a)).
  { intros a Ha Hin. assert (H : In axis (dkeys sh)) by (apply KI; eauto). apply smem_In in H. congruence. }
  assert (BS : exists bs, mapM (fun a => b <- na_broadcast_to a sh false ;; Ok (s_nd b)) l = Ok (map s_nd bs) /\
    Forall2 (fun a b => wf b /\ sshape b = sh /\ forall e, at_ b e = bat a e) l bs).
  { assert (ONE : forall a, In a l -> exists b, na_broadcast_to a sh false = Ok b /\
      (wf b /\ sshape b = sh /\ forall e, at_ b e = bat a e)).
    { intros a Ha. assert (Hs : In (sshape a) (map sshape l)) by (now apply in_map).
      destruct (na_broadcast_to_intro a sh) as [b Hb]; auto.
      - rewrite <- wf_keys by auto. auto.
      - intros ax n Hn. eapply broadcast_shapes_fit; eauto.
      - exists b. split; auto. apply na_broadcast_to_ok in Hb as (_ & _ & Wb & Sb & Eb); auto. }
    clear - ONE. induction l as [|a l IH]; [exists []; simpl; auto|].
    destruct IH as [bs [H1 H2]]; [intros; apply ONE; simpl; auto|].
    destruct (ONE a (or_introl eq_refl)) as [b [Hb Pb]]. exists (b :: bs). split; [|constructor; auto].
    simpl. rewrite Hb. simpl. simpl in H1. rewrite H1. reflexivity. }
  destruct BS as [bs [HM F2]].
  match goal with |- context [mapM ?f l] => replace (mapM f l) with (Ok (map s_nd bs)) by (symmetry; exact HM) end.
  cbn [bind].
  assert (LL : length l = length bs) by (eapply Forall2_length; eauto).
  destruct bs as [|b bs].
  { assert (l = []) by (destruct l; [auto|discriminate]). split; [intros (H' & _); contradiction|reflexivity]. }
  assert (FB : Forall (fun b => wf b /\ sshape b = sh) (b :: bs)).
  { clear - F2. remember (b :: bs) as L. clear HeqL. induction F2 as [|? ? ? ? (H1 & H2 & _)]; constructor; auto. }
  assert (SB : forall c, In c (b :: bs) -> s_axes c = dkeys sh /\ nshape (s_nd c) = dvals sh).
  { intros c Hc. rewrite Forall_forall in FB. destruct (FB c Hc) as [Wc Sc]. rewrite <- Sc. split; [now rewrite wf_keys|now rewrite wf_vals]. }
  cbn [map np_stack].
  assert (G : forallb (fun c => idx_eqb (nshape c) (nshape (s_nd b))) (map s_nd bs) = true).
  { apply forallb_forall. intros x Hx. apply in_map_iff in Hx as [c [<- Hc]]. apply idx_eqb_true.
    destruct (SB c) as [_ ->]; [simpl; auto|]. destruct (SB b) as [_ ->]; simpl; auto. }
  rewrite G. cbn [bind].
  destruct (SB b (or_introl eq_refl)) as [Ab Sb].
  rewrite mk_sarr_intro.
  2: { constructor; auto. rewrite <- smem_In. congruence. }
  2: { cbn [nshape length]. rewrite Sb. unfold dkeys, dvals. now rewrite !map_length. }
  split.
  - intros _. do 2 eexists. split; [reflexivity|]. split; [reflexivity|]. split; [|split].
    + split; [|cbn [s_nd s_axes nshape length]; rewrite Sb; unfold dkeys, dvals; now rewrite !map_length].
      cbn [s_axes]. constructor; auto. rewrite <- smem_In. congruence.
    + unfold sshape. cbn [s_nd s_axes nshape combine]. rewrite Sb. f_equal.
      * rewrite LL. cbn [length]. now rewrite map_length.
      * apply combine_dkeys_dvals.
    + intros k a e Hk He. unfold at_ at 1. cbn [s_nd s_axes nget map hd tl].
      assert (Hb : exists c, nth_error (b :: bs) k = Some c /\ forall e, at_ c e = bat a e).
      { clear - F2 Hk. revert k Hk. generalize dependent (b :: bs). generalize dependent l.
        intros l0 bs0 F2. induction F2 as [|a' b' l bs1 (_ & _ & E)]; intros [|k] Hk; simpl in *; try discriminate.
        - injection Hk as ->. exists b'. auto.
        - auto. }
      destruct Hb as [c [Hc Ec]]. rewrite <- Ec. rewrite He.
      change (s_nd b :: map s_nd bs) with (map s_nd (b :: bs)). rewrite map_nth.
      rewrite (nth_error_nth _ _ _ Hc). unfold at_. destruct (SB c) as [-> _]; auto. eapply nth_error_In; eauto.
  - intros H. exfalso. apply H. split; [intros E0; rewrite E0 in LL; discriminate|]. split; auto. intros C.
    apply (broadcast_shapes_conflict _ NS) in C. congruence.
Qed.

Theorem stack_out {A} (arrays : list (operand A)) (axis : string) (o r : sarr A) :
  Forall op_wf arrays -> wf o -> na_stack arrays axis None = Ok r ->
  (out_fits o r -> exists r', na_stack arrays axis (Some o) = Ok r' /\ wf r' /\ sshape r' = sshape o /\
           forall e, inside e (sshape r) -> at_ r' e = at_ r e) /\
  (~ out_fits o r -> na_stack arrays axis (Some o) = Err ValueError).
Proof.
  intros W Wo E.
  assert (Q : na_stack arrays axis (Some o) = write_out o (s_axes r) (s_nd r) /\ wf r).
  { clear - E. unfold na_stack in *.
    destruct (broadcast_shapes _); cbn [bind] in *; [|discriminate]. destruct (smem _ _); [discriminate|].
    destruct (mapM _ _); cbn [bind] in *; [|discriminate].
    destruct (np_stack _); cbn [bind] in *; [|discriminate]. apply mk_sarr_ok in E as [-> W]. auto. }
  destruct Q as [-> Wr]. now apply write_out_res.
Qed.

(** ** Pieces of a concatenation sliced back out *)

Lemma seq_nth_error n : forall s i, nth_error (seq s n) i = if i <? n then Some (s + i) else None.
Proof.
  induction n as [|n IH]; intros s i; [now destruct i|]. destruct i as [|i]; simpl; [f_equal; lia|].
  rewrite IH. change (Datatypes.S i <? Datatypes.S n) with (i <? n). destruct (i <? n); auto. f_equal. lia.
Qed.

Lemma nth_error_ext {A} (l l' : list A) : (forall i, nth_error l i = nth_error l' i) -> l = l'.
Proof.
  revert l'. induction l as [|x l IH]; intros [|y l'] H; auto.
  - specialize (H 0). discriminate.
  - specialize (H 0). discriminate.
  - f_equal; [specialize (H 0); simpl in H; congruence|]. apply IH. intros i. apply (H (Datatypes.S i)).
Qed.

Lemma positions_piece off n N : off + n <= N ->
  positions (mkSlice (Some (Z.of_nat off)) (Some (Z.of_nat (off + n))) None) N = seq off n.
Proof.
  intros H. apply nth_error_ext. intros i. rewrite seq_nth_error.
  set (s := mkSlice _ _ _).
  assert (P := positions_spec s N i). assert (S1 : sl_step s <> Some 0%Z) by discriminate.
  assert (SF : slice_first s (Z.of_nat N) = Z.of_nat off).
  { unfold slice_first, slice_step, s. cbn [sl_start sl_step]. destruct (0 <? 1)%Z eqn:E1; [|discriminate].
    destruct (Z.ltb_spec (Z.of_nat off) 0); lia. }
  assert (SE : slice_end s (Z.of_nat N) = Z.of_nat (off + n)).
  { unfold slice_end, slice_step, s. cbn [sl_stop sl_step]. destruct (0 <? 1)%Z eqn:E1; [|discriminate].
    destruct (Z.ltb_spec (Z.of_nat (off + n)) 0); lia. }
  assert (ST : slice_step s = 1%Z) by reflexivity.
  assert (SS : forall p, slice_selects s N i p <-> p = off + i /\ i < n).
  { intros p. unfold slice_selects. rewrite SF, SE, ST. cbn [Z.ltb Z.compare]. lia. }
  destruct (Nat.ltb_spec i n).
  - apply P; auto. apply SS. lia.
  - destruct (nth_error (positions s N) i) as [p|] eqn:E; auto. apply (positions_spec s N i p S1) in E. apply SS in E. lia.
Qed.

Lemma getitem_piece {A} (a : sarr A) ax off n : wf a -> In ax (s_axes a) -> off + n <= size_of (sshape a) ax ->
  exists r, getitem a [(ax, ItSlice (mkSlice (Some (Z.of_nat off)) (Some (Z.of_nat (off + n))) None))] = Ok r /\
    wf r /\ sshape r = resized (sshape a) ax n /\
    forall e, inside e (sshape r) -> at_ r e = at_ a (set_env e ax (off + e ax)).
Proof.
  intros W Hin Hle.
  set (sl := mkSlice _ _ _). set (it := [(ax, ItSlice sl)]).
  assert (ND : NoDup (dkeys it)) by (repeat constructor; simpl; tauto).
  assert (IW : Forall (fun kv : string * item => item_wf (snd kv)) it) by (repeat constructor).
  assert (IT : filter (fun kv : string * item => smem (fst kv) (s_axes a)) it = it).
  { unfold it. cbn [filter fst]. apply smem_In in Hin. now rewrite Hin. }
  assert (ITE : filter (fun kv : string * item => smem (fst kv) (s_axes a)) it <> []) by (rewrite IT; discriminate).
  assert (SA : shape_broadcasted (map (fun kv : string * item => opnd (snd kv))
    (filter (fun kv => get_advanced (snd kv)) (filter (fun kv => smem (fst kv) (s_axes a)) it))) = Ok []).
  { rewrite IT. reflexivity. }
  assert (OK : forall ax', In ax' (s_axes a) -> item_ok (asize a ax') (dget it ax')).
  { intros ax' _. unfold it. cbn [dget]. destruct (String.eqb ax' ax); cbn; [discriminate|exact I]. }
  destruct (getitem_intro a it W ND IW [] ITE SA OK) as [r Hr]; [intros ? []|].
  destruct (getitem_ok a it W ND IW r ITE Hr) as (sa & SA' & _ & Wr & Sr & El).
  assert (sa = []) by congruence. subst sa.
  exists r. split; auto. split; auto.
  assert (SH : sshape r = resized (sshape a) ax n).
  { rewrite Sr. cbn [app]. rewrite IT. unfold it. cbn [filter get_advanced snd dkeys map].
    unfold others. rewrite filter_all.
    2: { intros; reflexivity. }
    rewrite (sshape_map a W). unfold resized. rewrite !map_map. apply map_ext_in. intros ax' Hx. cbn [fst snd dget].
    f_equal. destruct (String.eqb ax' ax) eqn:E.
    - apply String.eqb_eq in E. subst ax'. cbn [item_slice]. unfold sl. rewrite positions_piece, seq_length; auto.
    - cbn [item_slice]. now rewrite positions_slice_all, seq_length. }
  split; auto. intros e He. rewrite El. unfold at_. f_equal. apply map_ext_in. intros ax' Hx.
  unfold it. cbn [dget]. unfold set_env. destruct (String.eqb ax' ax) eqn:E.
  - apply String.eqb_eq in E. subst ax'. cbn [item_pos item_slice]. unfold sl.
    rewrite positions_piece by (rewrite asize_size_of; auto).
    assert (e ax < n).
    { apply (He ax n). rewrite SH. unfold resized. apply in_map_iff. exists (ax, size_of (sshape a) ax). cbn [fst snd].
      rewrite String.eqb_refl. split; auto. apply in_sshape; auto. }
    now rewrite seq_nth.
  - cbn [item_pos item_slice]. rewrite positions_slice_all, seq_nth; [lia|].
    apply (He ax' (size_of (sshape a) ax')). rewrite SH. unfold resized. apply in_map_iff.
    exists (ax', size_of (sshape a) ax'). cbn [fst snd]. rewrite E. split; auto. apply in_sshape; auto.
Qed.

Lemma concatenate_inv {A} (arrays : list (operand A)) (axis : string) (r : sarr A) :
  Forall op_wf arrays -> na_concatenate arrays axis None = Ok r ->
  let l := map normalize arrays in
  let sizes := map (fun a => size_of (sshape a) axis) l in
  (forall a, In a l -> In axis (s_axes a)) /\ wf r /\ In axis (s_axes r) /\
  size_of (sshape r) axis = list_sum sizes /\
  forall k a e, nth_error l k = Some a -> e axis < size_of (sshape a) axis ->
        at_ r (set_env e axis (list_sum (firstn k sizes) + e axis)) = bat a e.
Proof.
  intros W E l sizes. destruct (concatenate_gen arrays axis None W) as [H1 H2].
  match type of H1 with (?P -> _) => set (ok := P) in * end.
  assert (D : ~ ~ ok). { intros N. specialize (H2 N). cbv beta iota in H2. congruence. }
  assert (DO : ok).
  { assert (D1 : l = [] \/ l <> []) by (generalize l; intros l0; destruct l0; [auto|right; discriminate]).
    destruct D1 as [D1|D1]; [exfalso; apply D; intros (N & _); contradiction|].
    split; auto. split.
    - intros a Ha. destruct (in_dec string_dec axis (s_axes a)); auto. exfalso. apply D. intros (_ & N & _). auto.
    - intros C. apply D. intros (_ & _ & N). contradiction. }
  destruct (H1 DO) as (r1 & sh & B & E1 & W1 & S1 & El1). cbv beta iota in E1.
  assert (r1 = r) by congruence. subst r1. destruct DO as (D1 & D2 & D3).
  fold l in D1, D2, D3, S1, El1, B. fold sizes in S1, El1.
  assert (NS : Forall (fun s : shape => NoDup (dkeys s)) (map (fun a => resized (sshape a) axis 1) l)).
  { apply Forall_forall. intros s Hs. apply in_map_iff in Hs as [a [<- Ha]]. rewrite dkeys_resized.
    apply wf_nodup. assert (WW := normalize_all_wf _ W). rewrite Forall_forall in WW. auto. }
  destruct (broadcast_shapes_ok _ _ NS B) as (ND & K & _).
  assert (AX : In axis (dkeys sh)).
  { rewrite K. apply first_appearance_In, in_concat.
    assert (HH : exists a, In a l) by (revert D1; generalize l; intros l0 N0; destruct l0 as [|a ?]; [contradiction|exists a; simpl; auto]).
    destruct HH as [a Ha]. exists (dkeys (resized (sshape a) axis 1)). split.
    - rewrite map_map. apply in_map_iff. exists a. auto.
    - rewrite dkeys_resized. rewrite wf_keys; auto. assert (WW := normalize_all_wf _ W). rewrite Forall_forall in WW. auto. }
  split; [exact D2|]. split; [exact W1|]. split; [|split; [|exact El1]].
  - rewrite <- wf_keys by auto. rewrite S1. now rewrite dkeys_resized.
  - unfold size_of at 1. rewrite S1, dget_resized. apply dget_Some_key in AX as [m ->]. now rewrite String.eqb_refl.
Qed.

Lemma sum_firstn_nth l k n : nth_error l k = Some n -> list_sum (firstn k l) + n <= list_sum l.
Proof.
  revert k. induction l as [|x l IH]; intros [|k] H; simpl in *; try discriminate.
  - injection H as ->. lia.
  - apply IH in H. lia.
Qed.

Lemma set_env_id (e : env) ax : forall x, set_env e ax (e ax) x = e x.
Proof. intros x. unfold set_env. destruct (String.eqb_spec x ax); congruence. Qed.

Lemma bat_ext {A} (a : sarr A) (e e' : env) : wf a -> (forall ax, In ax (s_axes a) -> e ax = e' ax) -> bat a e = bat a e'.
Proof.
  intros W H. unfold bat, at_. f_equal. apply map_ext_in. intros ax Hax. unfold bclamp.
  destruct (dget (sshape a) ax) as [[|[|]]|]; auto.
Qed.

Theorem concatenate_pieces {A} (arrays : list (operand A)) (axis : string) (r : sarr A) :
  Forall op_wf arrays -> na_concatenate arrays axis None = Ok r ->
  let l := map normalize arrays in
  let sizes := map (fun a => size_of (sshape a) axis) l in
  forall k a, nth_error l k = Some a ->
    let start := list_sum (firstn k sizes) in
    let stop := start + size_of (sshape a) axis in
    exists piece,
      getitem r [(axis, ItSlice (mkSlice (Some (Z.of_nat start)) (Some (Z.of_nat stop)) None))] = Ok piece /\
      wf piece /\ sshape piece = resized (sshape r) axis (size_of (sshape a) axis) /\
      forall e, inside e (sshape piece) -> at_ piece e = bat a e.
Proof.
  intros W E l sizes k a Hk start stop.
  destruct (concatenate_inv arrays axis r W E) as (HA & Wr & Hax & Sz & El). fold l in HA, Sz, El. fold sizes in Sz, El.
  assert (HS : nth_error sizes k = Some (size_of (sshape a) axis)) by (unfold sizes; now rewrite nth_error_map, Hk).
  assert (LE := sum_firstn_nth _ _ _ HS).
  destruct (getitem_piece r axis start (size_of (sshape a) axis)) as (p & G & Wp & Sp & Ep); auto.
  { unfold start. rewrite Sz. exact LE. }
  exists p. split; auto. split; auto. split; auto. intros e He. rewrite Ep by auto. unfold start. apply El; auto.
  apply (He axis). rewrite Sp. unfold resized. apply in_map_iff. exists (axis, size_of (sshape r) axis). cbn [fst snd].
  rewrite String.eqb_refl. split; auto. apply in_sshape; auto.
Qed.

(** ** Differences *)

Lemma map_seq_shift {A} (f : nat -> A) s n : map f (seq s n) = map (fun j => f (s + j)) (seq 0 n).
Proof.
  revert s. induction n as [|n IH]; intros s; auto. cbn [seq map]. f_equal; [f_equal; lia|].
  rewrite IH, <- seq_shift, map_map. apply map_ext. intros j. f_equal. lia.
Qed.

Lemma seq_pieces {T A} (sz : T -> nat) (h : T -> nat -> A) (g : nat -> A) (bs : list T) :
  forall s, (forall k c j, nth_error bs k = Some c -> j < sz c -> g (s + (list_sum (firstn k (map sz bs)) + j)) = h c j) ->
  map g (seq s (list_sum (map sz bs))) = flat_map (fun c => map (h c) (seq 0 (sz c))) bs.
Proof.
  induction bs as [|b bs IH]; intros s H; auto.
  cbn [map list_sum fold_right flat_map]. change (fold_right Nat.add 0 (map sz bs)) with (list_sum (map sz bs)).
  rewrite seq_app, map_app. f_equal.
  - rewrite map_seq_shift. apply map_ext_in. intros j Hj. apply in_seq in Hj. apply (H 0 b j); auto; lia.
  - apply IH. intros k c j Hk Hj. rewrite <- (H (Datatypes.S k) c j); auto. f_equal. cbn [map firstn list_sum fold_right].
    change (fold_right Nat.add 0) with list_sum. lia.
Qed.

Lemma delta_map {A} (sub : A -> A -> A) (f : nat -> A) n : forall s,
  delta sub (map f (seq s n)) = map (fun j => sub (f (Datatypes.S j)) (f j)) (seq s (n - 1)).
Proof.
  induction n as [|n IH]; intros s; auto. destruct n as [|n]; auto.
  cbn [seq map]. cbn [seq map] in IH. replace (Datatypes.S (Datatypes.S n) - 1) with (Datatypes.S n) by lia.
  cbn [seq map]. cbn [delta]. f_equal. cbn [delta] in IH. rewrite (IH (Datatypes.S s)).
  replace (Datatypes.S n - 1) with n by lia. reflexivity.
Qed.

Lemma at_ext {A} (a : sarr A) (e e' : env) : (forall ax, In ax (s_axes a) -> e ax = e' ax) -> at_ a e = at_ a e'.
Proof. intros H. unfold at_. f_equal. now apply map_ext_in. Qed.

Lemma set_env_twice (e : env) ax i j : forall x, set_env (set_env e ax i) ax j x = set_env e ax j x.
Proof. intros x. unfold set_env. destruct (String.eqb x ax); auto. Qed.

Lemma size_of_resized sh ax n : In ax (dkeys sh) -> size_of (resized sh ax n) ax = n.
Proof. intros H. unfold size_of. rewrite dget_resized. apply dget_Some_key in H as [m ->]. now rewrite String.eqb_refl. Qed.

Lemma resized_twice sh ax n m : resized (resized sh ax n) ax m = resized sh ax m.
Proof. unfold resized. rewrite map_map. apply map_ext. intros [k v]. cbn [fst snd]. destruct (String.eqb k ax); auto. Qed.

Lemma diff1_named {A} (sub : A -> A -> A) (a : sarr A) ax : wf a -> In ax (s_axes a) ->
  let r := mkS (np_diff1 sub (s_nd a) (spos ax (s_axes a))) (s_axes a) in
  wf r /\ sshape r = resized (sshape a) ax (size_of (sshape a) ax - 1) /\
  forall e, line r ax e = delta sub (line a ax e).
Proof.
  intros W Hin r.
  assert (Wr : wf r). { destruct W as [W1 W2]. split; auto. unfold r. cbn [s_nd s_axes]. unfold np_diff1. cbn [nshape].
    now rewrite set_nth_length. }
  assert (Sr : sshape r = resized (sshape a) ax (size_of (sshape a) ax - 1)).
  { unfold sshape at 1, r, np_diff1. cbn [s_nd s_axes nshape]. rewrite nth_shape by auto. now apply set_nth_shape. }
  split; auto. split; auto. intros e. unfold line. rewrite delta_map. rewrite Sr, size_of_resized by (now rewrite wf_keys).
  apply map_ext. intros j. unfold at_ at 1. unfold r, np_diff1. cbn [s_nd s_axes nget].
  rewrite nth_named by auto. rewrite set_nth_named by (auto; apply W).
  unfold at_. f_equal. f_equal. apply map_ext. intros x. rewrite set_env_twice. unfold set_env. now rewrite String.eqb_refl.
Qed.

Lemma diff_iter_named {A} (sub : A -> A -> A) (a : sarr A) ax n : wf a -> In ax (s_axes a) ->
  let r := mkS (Nat.iter n (fun b => np_diff1 sub b (spos ax (s_axes a))) (s_nd a)) (s_axes a) in
  wf r /\ sshape r = resized (sshape a) ax (size_of (sshape a) ax - n) /\
  forall e, line r ax e = Nat.iter n (delta sub) (line a ax e).
Proof.
  intros W Hin. induction n as [|n IH].
  - cbn [Nat.iter nat_rect]. replace (mkS (s_nd a) (s_axes a)) with a by (now destruct a). split; auto. split; auto.
    rewrite Nat.sub_0_r. symmetry. apply resized_same; [|now apply wf_nodup].
    apply dget_NoDup; [now apply wf_nodup|]. apply in_sshape; auto.
  - destruct IH as (W1 & S1 & L1). cbn [s_nd s_axes] in W1, S1, L1.
    set (r := mkS _ (s_axes a)) in W1, S1, L1.
    destruct (diff1_named sub r ax W1) as (W2 & S2 & L2); auto. cbn [s_nd s_axes r] in W2, S2, L2.
    split; [exact W2|]. split.
    + etransitivity; [exact S2|]. fold r. rewrite S1, resized_twice. f_equal. rewrite size_of_resized by (now rewrite wf_keys). lia.
    + intros e. etransitivity; [exact (L2 e)|]. fold r. rewrite L1. reflexivity.
Qed.

Lemma olist_map {A B} (f : A -> B) o : olist (option_map f o) = map f (olist o).
Proof. now destruct o. Qed.

Lemma fits_in_dec (s t : shape) : fits_in s t \/ ~ fits_in s t.
Proof.
  assert (E : fits_in s t <-> Forall (fun kv => Exists (fun kv' => fst kv' = fst kv /\ (snd kv = 1 \/ snd kv = snd kv')) t) s).
  { unfold fits_in. rewrite Forall_forall. split.
    - intros H [ax n] Hin. destruct (H ax n Hin) as [m [Hm Hc]]. apply Exists_exists. exists (ax, m). auto.
    - intros H ax n Hin. specialize (H _ Hin). apply Exists_exists in H as [[ax' m] [Hm [Hf Hc]]]. cbn in *. subst. eauto. }
  rewrite E. destruct (Forall_dec (fun kv : string * nat => Exists (fun kv' : string * nat => fst kv' = fst kv /\ (snd kv = 1 \/ snd kv = snd kv')) t)) with (l := s); auto.
  intros kv. apply Exists_dec. intros kv'. destruct (string_dec (fst kv') (fst kv)); [|right; tauto].
  destruct (Nat.eq_dec (snd kv) 1); [left; auto|]. destruct (Nat.eq_dec (snd kv) (snd kv')); [left; auto|right; tauto].
Qed.

Theorem diff_spec {A} (sub : A -> A -> A) (n : nat) (a : sarr A) (axis : string) (prepend append : option (operand A)) :
  wf a -> (forall o, prepend = Some o -> op_wf o) -> (forall o, append = Some o -> op_wf o) ->
  let extra (o : option (operand A)) := match o with Some b => fun e => [op_at b e] | None => fun _ => [] end in
  let ok := In axis (s_axes a) /\
    (forall o, prepend = Some o \/ append = Some o -> op_fits o (resized (sshape a) axis 1)) in
  (ok -> exists r, na_diff sub n a axis prepend append = Ok r /\ wf r /\ s_axes r = s_axes a /\
     (forall ax, In ax (s_axes a) -> ax <> axis -> size_of (sshape r) ax = size_of (sshape a) ax) /\
     forall e, line r axis e =
       match n with
       | 0 => line a axis e
       | _ => Nat.iter n (delta sub) (extra prepend e ++ line a axis e ++ extra append e)
       end) /\
  (~ ok -> na_diff sub n a axis prepend append = Err ValueError).
Proof.
  intros W Wp Wa extra ok. unfold na_diff.
  destruct (smem axis (dkeys (sshape a))) eqn:EM; cbn [negb].
  2: { split; [|reflexivity]. intros [H _]. apply smem_In in H. rewrite wf_keys in EM by auto. congruence. }
  apply smem_In in EM. assert (Hin := EM). rewrite wf_keys in Hin by auto.
  change (map (fun kv : string * nat => (fst kv, if String.eqb (fst kv) axis then 1 else snd kv)) (sshape a))
    with (resized (sshape a) axis 1).
  assert (NR : NoDup (dkeys (resized (sshape a) axis 1))) by (rewrite dkeys_resized; now apply wf_nodup).
  assert (FIT : forall o : option (operand A), (forall b, o = Some b -> op_wf b) ->
     let fit := match o with Some b => r <- na_broadcast_to (normalize b) (resized (sshape a) axis 1) false ;; Ok (Some (s_nd r))
                | None => Ok None end in
     ((forall b, o = Some b -> op_fits b (resized (sshape a) axis 1)) ->
       exists x, fit = Ok (option_map s_nd x) /\
        (forall c, x = Some c -> wf c /\ sshape c = resized (sshape a) axis 1) /\
        forall e, flat_map (fun c => line c axis e) (olist x) = extra o e) /\
     (~ (forall b, o = Some b -> op_fits b (resized (sshape a) axis 1)) -> fit = Err ValueError)).
  { intros o Wo. destruct o as [b|]; cbn [extra].
    2: { cbn. split; [intros _; exists None; repeat split; auto; discriminate|]. intros H. exfalso. apply H. discriminate. }
    assert (Wb : wf (normalize b)) by (destruct b; cbn; [exact (Wo _ eq_refl)|repeat constructor]).
    destruct (broadcast_to_fits (normalize b) _ Wb NR) as [F1 F2].
    assert (FE : (forall b0, Some b = Some b0 -> op_fits b0 (resized (sshape a) axis 1)) <->
                 fits_in (sshape (normalize b)) (resized (sshape a) axis 1)).
    { split.
      - intros H. specialize (H b eq_refl). destruct b; cbn in *; auto. intros ? ? [].
      - intros H b0 Hb. injection Hb as <-. destruct b; cbn in *; auto. }
    rewrite FE. split.
    - intros H. destruct (F1 H) as (c & Ec & Wc & Sc & Atc). rewrite Ec. cbn [bind]. exists (Some c). split; [reflexivity|].
      split; [intros c' Hc; injection Hc as <-; auto|]. intros e. cbn [olist flat_map]. rewrite app_nil_r.
      unfold line. rewrite Sc, size_of_resized by auto. cbn [seq map]. f_equal. rewrite Atc.
      destruct b as [b|]; [|reflexivity]. cbn [normalize op_at] in *.
      unfold bat. apply at_ext. intros ax Hax. unfold bclamp.
      destruct (dget (sshape b) ax) as [m|] eqn:ED.
      + unfold set_env. destruct (String.eqb_spec ax axis) as [->|]; auto.
        destruct (H axis m (dget_In _ _ _ ED)) as [m' [Hm Hc]].
        assert (m' = 1). { apply dget_NoDup in Hm; auto. rewrite dget_resized in Hm. apply dget_Some_key in EM as [q Hq]. rewrite Hq in Hm.
          rewrite String.eqb_refl in Hm. congruence. }
        assert (m = 1) by (destruct Hc; congruence). subst m. reflexivity.
      + exfalso. apply dget_None in ED. apply ED. now rewrite wf_keys.
    - intros H. rewrite (F2 H). reflexivity. }
  destruct (FIT prepend Wp) as [P1 P2]. destruct (FIT append Wa) as [Q1 Q2].
  assert (DEC : forall o : option (operand A), (forall b, o = Some b -> op_wf b) ->
     (forall b, o = Some b -> op_fits b (resized (sshape a) axis 1)) \/
     ~ (forall b, o = Some b -> op_fits b (resized (sshape a) axis 1))).
  { intros o Wo. destruct o as [b|]; [|left; discriminate]. destruct b as [b|x]; [|left; intros b Hb; injection Hb as <-; exact I].
    destruct (fits_in_dec (sshape b) (resized (sshape a) axis 1)) as [H|H].
    - left. intros b0 Hb. injection Hb as <-. auto.
    - right. intros N. apply H. exact (N _ eq_refl). }
  cbv zeta in P1, P2, Q1, Q2.
  destruct (DEC prepend Wp) as [DP|DP].
  2: { rewrite (P2 DP). split; [|reflexivity]. intros [_ H]. exfalso. apply DP. auto. }
  destruct (DEC append Wa) as [DQ|DQ].
  2: { destruct (P1 DP) as (x & -> & _). cbn [bind]. rewrite (Q2 DQ). split; [|reflexivity]. intros [_ H]. exfalso. apply DQ. auto. }
  destruct (P1 DP) as (x & -> & Cx & Lx). destruct (Q1 DQ) as (y & -> & Cy & Ly). cbn [bind].
  rewrite wf_keys by auto. unfold index_of. rewrite (sindex_In _ _ Hin). cbn [bind].
  split; [|intros H; exfalso; apply H; split; auto; intros o [Ho|Ho]; auto].
  intros _. destruct n as [|n].
  { cbn [np_diff bind]. rewrite mk_sarr_intro by (apply W). replace (mkS (s_nd a) (s_axes a)) with a by (now destruct a).
    exists a. repeat split; auto; apply W. }
  unfold np_diff. rewrite !olist_map. change [s_nd a] with (map s_nd [a]). rewrite <- !map_app.
  set (bs := olist x ++ [a] ++ olist y).
  assert (FB : Forall (fun c => wf c /\ sshape c = resized (sshape a) axis (size_of (sshape c) axis)) bs).
  { apply Forall_forall. intros c Hc. unfold bs in Hc. rewrite !in_app_iff in Hc. destruct Hc as [Hc|[Hc|Hc]].
    - destruct x as [c'|]; [|destruct Hc]. destruct Hc as [<-|[]]. destruct (Cx _ eq_refl) as [? HS]. split; auto.
      rewrite HS. now rewrite size_of_resized.
    - destruct Hc as [<-|[]]. split; auto. symmetry. apply resized_same; [|now apply wf_nodup].
      apply dget_NoDup; [now apply wf_nodup|]. apply in_sshape; auto.
    - destruct y as [c'|]; [|destruct Hc]. destruct Hc as [<-|[]]. destruct (Cy _ eq_refl) as [? HS]. split; auto.
      rewrite HS. now rewrite size_of_resized. }
  destruct (np_concatenate_named axis (s_axes a) (sshape a) bs) as (c & EC & Wc & Sc & Elc); auto.
  { unfold bs. destruct x; discriminate. }
  { apply W. }
  { now apply wf_keys. }
  rewrite EC. cbn [bind].
  destruct (diff_iter_named sub (mkS c (s_axes a)) axis (Datatypes.S n)) as (Wr & Sr & Lr); auto.
  cbn [s_nd s_axes] in Wr, Sr, Lr. rewrite mk_sarr_intro by (apply Wr).
  eexists. split; [reflexivity|]. split; [exact Wr|]. split; [reflexivity|]. split.
  - intros ax Hax Hne. unfold size_of at 1. rewrite Sr, Sc, resized_twice, dget_resized. unfold size_of.
    destruct (dget (sshape a) ax); auto. destruct (String.eqb_spec ax axis); [contradiction|reflexivity].
  - intros e. rewrite Lr. f_equal.
    transitivity (flat_map (fun c => line c axis e) bs).
    + unfold line at 1. rewrite Sc, size_of_resized by auto.
      apply (seq_pieces (fun c => size_of (sshape c) axis) (fun c j => at_ c (set_env e axis j))).
      intros k c0 j Hk Hj. rewrite <- (Elc k c0 (set_env e axis j)); auto.
      2: { unfold set_env. now rewrite String.eqb_refl. }
      apply at_ext. intros ax _. rewrite set_env_twice. unfold set_env. rewrite String.eqb_refl. reflexivity.
    + unfold bs. rewrite !flat_map_app, Lx, Ly. cbn [flat_map]. now rewrite app_nil_r.
Qed.

(** ** Cumulative sums and differences undo each other *)

Lemma line_at {A} (a : sarr A) ax e : e ax < size_of (sshape a) ax -> nth_error (line a ax e) (e ax) = Some (at_ a e).
Proof.
  intros H. unfold line. rewrite nth_error_map, seq_nth_error. apply Nat.ltb_lt in H. rewrite H. cbn [option_map plus].
  f_equal. apply at_ext. intros x _. apply set_env_id.
Qed.

Lemma line_length {A} (a : sarr A) ax e : length (line a ax e) = size_of (sshape a) ax.
Proof. unfold line. now rewrite map_length, seq_length. Qed.

Lemma line_set {A} (a : sarr A) ax e j : line a ax (set_env e ax j) = line a ax e.
Proof. unfold line. apply map_ext. intros i. apply at_ext. intros x _. apply set_env_twice. Qed.

Lemma lines_same {A} (a b : sarr A) ax : wf a -> wf b -> s_axes a = s_axes b -> In ax (s_axes a) ->
  (forall x, In x (s_axes a) -> x <> ax -> size_of (sshape a) x = size_of (sshape b) x) ->
  (forall e, line a ax e = line b ax e) -> sshape a = sshape b /\ same_array a b.
Proof.
  intros Wa Wb E Hin Hs Hl.
  assert (SZ : size_of (sshape a) ax = size_of (sshape b) ax).
  { rewrite <- (line_length a ax (fun _ => 0)), <- (line_length b ax (fun _ => 0)). now rewrite Hl. }
  assert (SH : sshape a = sshape b).
  { rewrite (sshape_map a Wa), (sshape_map b Wb), <- E. apply map_ext_in. intros x Hx. f_equal.
    rewrite !asize_size_of. destruct (string_dec x ax) as [->|]; auto. }
  split; auto. split; [rewrite SH; intros ? ?; tauto|].
  intros e He. assert (H : e ax < size_of (sshape a) ax) by (apply (He ax); apply in_sshape; auto).
  assert (H1 := line_at a ax e H). rewrite SZ in H. assert (H2 := line_at b ax e H). rewrite Hl in H1. congruence.
Qed.

Lemma firstn_S_nth {A} (l : list A) j x : nth_error l j = Some x -> firstn (Datatypes.S j) l = firstn j l ++ [x].
Proof.
  revert j. induction l as [|y l IH]; intros [|j] H; simpl in *; try discriminate; [congruence|].
  f_equal. now apply IH.
Qed.

Lemma sum_list_snoc {A} (add : A -> A -> A) zero l x : l <> [] -> sum_list add zero (l ++ [x]) = add (sum_list add zero l) x.
Proof. destruct l as [|y l]; [contradiction|]. intros _. simpl. now rewrite fold_left_app. Qed.

Lemma cumulative_line {A B} (scan : list A -> B) (initial : bool) (a : sarr A) axis r :
  wf a -> In axis (s_axes a) -> na_cumulative scan initial a (Some [axis]) None = Ok r ->
  wf r /\ s_axes r = s_axes a /\
  (forall x, In x (s_axes a) -> x <> axis -> size_of (sshape r) x = size_of (sshape a) x) /\
  forall e, line r axis e =
    map (fun j => scan (firstn (j + if initial then 0 else 1) (line a axis e)))
        (seq 0 (size_of (sshape a) axis + if initial then 1 else 0)).
Proof.
  intros W Hin E. destruct (cumulative_spec scan initial a (Some [axis]) W) as [H _]. cbv zeta in H.
  destruct (H axis eq_refl Hin) as (r' & E' & Wr & Sr & El). assert (r' = r) by congruence. subst r'.
  split; auto. split; [|split].
  - rewrite <- wf_keys by auto. rewrite Sr, dkeys_resized. now apply wf_keys.
  - intros x Hx Hne. rewrite Sr. unfold size_of. rewrite dget_resized. destruct (dget (sshape a) x); auto.
    destruct (String.eqb_spec x axis); [contradiction|reflexivity].
  - intros e. unfold line at 1. rewrite Sr, size_of_resized by (now rewrite wf_keys). apply map_ext. intros j.
    rewrite El, line_set. f_equal. f_equal. unfold set_env. now rewrite String.eqb_refl.
Qed.

Theorem diff_cumulative {A} (add sub : A -> A -> A) (zero : A) (a : sarr A) (axis : string) :
  (forall x y, sub (add x y) x = y) -> (forall x, sub x zero = x) ->
  wf a -> In axis (s_axes a) ->
  exists s d, na_cumulative (sum_list add zero) true a (Some [axis]) None = Ok s /\
    na_diff sub 1 s axis None None = Ok d /\ same_array d a.
Proof.
  intros H1 H2 W Hin.
  destruct (cumulative_spec (sum_list add zero) true a (Some [axis]) W) as [H _].
  destruct (H axis eq_refl Hin) as (s & Es & _). clear H.
  destruct (cumulative_line _ _ _ _ _ W Hin Es) as (Ws & As & Ss & Ls).
  destruct (diff_spec sub 1 s axis None None Ws) as [D _]; [discriminate|discriminate|].
  destruct D as (d & Ed & Wd & Ad & Sd & Ld).
  { split; [now rewrite As|]. intros o [Ho|Ho]; discriminate. }
  exists s, d. split; auto. split; auto.
  apply (lines_same d a axis); auto; [congruence|now rewrite Ad, As| |].
  - intros x Hx Hne. rewrite Ad in Hx. rewrite Sd by auto. rewrite As in Hx. auto.
  - intros e. rewrite Ld. cbn [app]. rewrite app_nil_r. cbn [Nat.iter nat_rect]. rewrite Ls, delta_map.
    rewrite Nat.add_sub. apply nth_error_ext. intros i. rewrite nth_error_map, seq_nth_error.
    destruct (Nat.ltb_spec i (size_of (sshape a) axis)) as [Hi|Hi]; cbn [option_map plus].
    + destruct (nth_error (line a axis e) i) as [x|] eqn:Ex.
      2: { apply nth_error_None in Ex. rewrite line_length in Ex. lia. }
      f_equal. rewrite !Nat.add_0_r. change (Datatypes.S i) with (Datatypes.S i). rewrite (firstn_S_nth _ _ _ Ex).
      destruct (firstn i (line a axis e)) as [|y l'] eqn:EF; [cbn; apply H2|].
      rewrite sum_list_snoc by discriminate. apply H1.
    + symmetry. apply nth_error_None. now rewrite line_length.
Qed.

Lemma sum_delta {A} (add sub : A -> A -> A) : (forall x y, add x (sub y x) = y) ->
  forall l x j, nth_error (x :: l) j = Some (fold_left add (firstn j (delta sub (x :: l))) x) \/ length l < j.
Proof.
  intros H. induction l as [|y l IH]; intros x [|j]; auto.
  - right. simpl. lia.
  - destruct (IH y j) as [E|E]; [|right; simpl; lia]. left.
    change (delta sub (x :: y :: l)) with (sub y x :: delta sub (y :: l)). cbn [nth_error firstn fold_left].
    rewrite H. exact E.
Qed.

Theorem cumulative_diff {A} (add sub : A -> A -> A) (zero : A) (a : sarr A) (axis : string) :
  (forall x y, add x (sub y x) = y) -> (forall x, sub x zero = x) ->
  wf a -> In axis (s_axes a) ->
  exists d s, na_diff sub 1 a axis (Some (OpNum zero)) None = Ok d /\
    na_cumulative (sum_list add zero) false d (Some [axis]) None = Ok s /\ same_array s a.
Proof.
  intros H1 H2 W Hin.
  destruct (diff_spec sub 1 a axis (Some (OpNum zero)) None W) as [D _]; [intros o Ho; injection Ho as <-; exact I|discriminate|].
  destruct D as (d & Ed & Wd & Ad & Sd & Ld).
  { split; auto. intros o [Ho|Ho]; [injection Ho as <-; exact I|discriminate]. }
  assert (Hd : In axis (s_axes d)) by (now rewrite Ad).
  destruct (cumulative_spec (sum_list add zero) false d (Some [axis]) Wd) as [H _].
  destruct (H axis eq_refl Hd) as (s & Es & _). clear H.
  destruct (cumulative_line _ _ _ _ _ Wd Hd Es) as (Ws & As & Ss & Ls).
  exists d, s. split; auto. split; auto.
  apply (lines_same s a axis); auto; [congruence|now rewrite As| |].
  - intros x Hx Hne. rewrite As in Hx. rewrite Ss by auto. rewrite Ad in Hx. auto.
  - intros e. assert (LE := line_length d axis e). rewrite Ls, Ld. rewrite Ld in LE. cbn [app op_at] in *. rewrite app_nil_r in *. cbn [Nat.iter nat_rect] in *.
    rewrite <- LE, Nat.add_0_r. clear - H1 H2. destruct (line a axis e) as [|x l]; auto.
    change (delta sub (zero :: x :: l)) with (sub x zero :: delta sub (x :: l)). rewrite H2.
    apply nth_error_ext. intros i. rewrite nth_error_map, seq_nth_error.
    assert (LD : length (x :: delta sub (x :: l)) = length (x :: l)).
    { simpl. f_equal. clear. revert x. induction l as [|y l IH]; intros x; auto.
      change (delta sub (x :: y :: l)) with (sub y x :: delta sub (y :: l)). simpl. f_equal. apply IH. }
    rewrite LD. destruct (Nat.ltb_spec i (length (x :: l))) as [Hi|Hi]; cbn [option_map plus].
    + replace (i + 1) with (Datatypes.S i) by lia. cbn [firstn sum_list].
      destruct (sum_delta add sub H1 l x i) as [E|E]; [now rewrite E|]. simpl in Hi. lia.
    + symmetry. now apply nth_error_None.
Qed.

(** ** Repetition *)

Lemma repeat_src_expand {A} reps : forall (f : nat -> A),
  map (fun i => f (repeat_src reps i)) (seq 0 (list_sum reps)) = expand reps (map f (seq 0 (length reps))).
Proof.
  induction reps as [|k reps IH]; intros f; auto.
  cbn [length seq map expand]. change (list_sum (k :: reps)) with (k + list_sum reps).
  rewrite seq_app, map_app. f_equal.
  - transitivity (map (fun _ : nat => f 0) (seq 0 k)).
    + apply map_ext_in. intros i Hi. apply in_seq in Hi. cbn [repeat_src].
      destruct (Nat.ltb_spec i k); [auto|lia].
    + generalize 0 at 2. induction k; intros s; simpl; f_equal; auto.
  - rewrite <- seq_shift, map_map, <- (IH (fun i => f (Datatypes.S i))).
    rewrite map_seq_shift. apply map_ext. intros j. cbn [repeat_src]. destruct (Nat.ltb_spec (0 + k + j) k); [lia|].
    f_equal. f_equal. f_equal. lia.
Qed.

Lemma ravel_1d {A} (n : nd A) m : nshape n = [m] -> ravel n = map (fun j => nget n [j]) (seq 0 m).
Proof.
  intros H. unfold ravel. rewrite H. cbn [ndindex]. rewrite flat_map_concat_map, concat_map, map_map.
  cbn [map]. induction (seq 0 m); simpl; f_equal; auto.
Qed.

Lemma repeat_named {A} (a : sarr A) axis reps : wf a -> In axis (s_axes a) -> length reps = size_of (sshape a) axis ->
  let p := spos axis (s_axes a) in
  let r := mkS (mkNd (set_nth p (list_sum reps) (nshape (s_nd a)))
                (fun idx => nget (s_nd a) (set_nth p (repeat_src reps (nth p idx 0)) idx))) (s_axes a) in
  wf r /\ sshape r = resized (sshape a) axis (list_sum reps) /\
  forall e, line r axis e = expand reps (line a axis e).
Proof.
  intros W Hin L p r.
  assert (Wr : wf r). { destruct W as [W1 W2]. split; auto. unfold r. cbn [s_nd s_axes nshape]. now rewrite set_nth_length. }
  assert (Sr : sshape r = resized (sshape a) axis (list_sum reps)).
  { unfold sshape at 1, r. cbn [s_nd s_axes nshape]. unfold p. now apply set_nth_shape. }
  split; auto. split; auto. intros e. unfold line. rewrite Sr, size_of_resized by (now rewrite wf_keys).
  rewrite <- L, <- repeat_src_expand. apply map_ext. intros j. unfold at_ at 1, r. cbn [s_nd s_axes nget]. unfold p.
  rewrite nth_named by auto. rewrite set_nth_named by (auto; apply W).
  unfold at_. f_equal. apply map_ext. intros x. rewrite set_env_twice. f_equal. f_equal. unfold set_env. now rewrite String.eqb_refl.
Qed.

Lemma repeat_map_const {A} (x : A) n : forall s, repeat x n = map (fun _ => x) (seq s n).
Proof. induction n; intros s; simpl; f_equal; auto. Qed.

Theorem repeat_spec {A} (a : sarr A) (repeats : operand nat) (axis : string) :
  wf a -> op_wf repeats ->
  let n := size_of (sshape a) axis in
  let ok := In axis (s_axes a) /\
    (op_shape repeats = [] \/ exists ax m, op_shape repeats = [(ax, m)] /\ (m = 1 \/ m = n)) in
  (ok -> exists r, na_repeat a repeats axis = Ok r /\ wf r /\ s_axes r = s_axes a /\
     (forall x, In x (s_axes a) -> x <> axis -> size_of (sshape r) x = size_of (sshape a) x) /\
     forall e, line r axis e = expand (map (fun j => op_at repeats (fun _ => j)) (seq 0 n)) (line a axis e)) /\
  (~ ok -> na_repeat a repeats axis = Err ValueError).
Proof.
  intros W Wr n ok. unfold na_repeat.
  destruct (smem axis (s_axes a)) eqn:EM; cbn [negb].
  2: { split; [|reflexivity]. intros [H _]. apply smem_In in H. congruence. }
  apply smem_In in EM. unfold index_of. rewrite (sindex_In _ _ EM). cbn [bind].
  assert (KEY : forall reps, length reps = n -> reps = map (fun j => op_at repeats (fun _ => j)) (seq 0 n) ->
    let p := spos axis (s_axes a) in
    exists r, mk_sarr (mkNd (set_nth p (list_sum reps) (nshape (s_nd a)))
                (fun idx => nget (s_nd a) (set_nth p (repeat_src reps (nth p idx 0)) idx))) (s_axes a) = Ok r /\
     wf r /\ s_axes r = s_axes a /\
     (forall x, In x (s_axes a) -> x <> axis -> size_of (sshape r) x = size_of (sshape a) x) /\
     forall e, line r axis e = expand (map (fun j => op_at repeats (fun _ => j)) (seq 0 n)) (line a axis e)).
  { intros reps L E p. destruct (repeat_named a axis reps W EM L) as (H1 & H2 & H3). fold p in H1, H2, H3.
    rewrite mk_sarr_intro by (apply H1). eexists. split; [reflexivity|]. split; [exact H1|]. split; [reflexivity|]. split.
    - intros x Hx Hne. rewrite H2. unfold size_of. rewrite dget_resized. destruct (dget (sshape a) x); auto.
      destruct (String.eqb_spec x axis); [contradiction|reflexivity].
    - intros e. rewrite H3. now rewrite E. }
  unfold np_repeat. rewrite nth_shape by auto. fold n.
  destruct repeats as [v|k].
  2: { cbn [normalize s_nd nshape]. split; [|intros H; exfalso; apply H; split; auto]. intros _. cbn [bind].
       apply KEY; [apply repeat_length|]. exact (repeat_map_const k n 0). }
  cbn [normalize op_shape op_at op_wf] in *. destruct v as [nv axv]. destruct Wr as [W1 W2]. cbn [s_nd s_axes] in *.
  unfold sshape in *. cbn [s_nd s_axes] in *.
  destruct (nshape nv) as [|m [|m' l]] eqn:ES; destruct axv as [|ax [|ax' axl]]; try discriminate.
  - split; [|intros H; exfalso; apply H; split; auto]. intros _. cbn [bind]. apply KEY; [apply repeat_length|].
    unfold bat, at_. cbn [s_nd s_axes map]. unfold ravel. rewrite ES. cbn [ndindex map hd].
    exact (repeat_map_const (nget nv []) n 0).
  - destruct (Nat.eq_dec m 1) as [->|M1].
    + split; [|intros H; exfalso; apply H; split; auto; right; exists ax, 1; auto].
      intros _. cbn [bind]. apply KEY; [apply repeat_length|].
      rewrite (ravel_1d _ _ ES). cbn [seq map hd]. unfold bat, at_, bclamp, sshape. cbn [s_nd s_axes map]. rewrite ES. cbn [combine dget].
      rewrite String.eqb_refl. exact (repeat_map_const (nget nv [0]) n 0).
    + replace (match m with 1 => _ | _ => _ end) with
        (if m =? n
         then Ok (mkNd (set_nth (spos axis (s_axes a)) (list_sum (ravel nv)) (nshape (s_nd a)))
                (fun idx => nget (s_nd a) (set_nth (spos axis (s_axes a)) (repeat_src (ravel nv) (nth (spos axis (s_axes a)) idx 0)) idx)))
         else Err ValueError) by (destruct m as [|[|m]]; auto; contradiction).
      destruct (Nat.eqb_spec m n) as [->|MN].
      * split; [|intros H; exfalso; apply H; split; auto; right; exists ax, n; auto].
        intros _. cbn [bind]. apply KEY.
        { rewrite (ravel_1d _ _ ES). now rewrite map_length, seq_length. }
        rewrite (ravel_1d _ _ ES). apply map_ext. intros j. unfold bat, at_, bclamp, sshape. cbn [s_nd s_axes map]. rewrite ES.
        cbn [combine dget]. rewrite String.eqb_refl. destruct n as [|[|]]; auto. contradiction.
      * split; [|reflexivity]. intros [_ [H|(ax0 & m0 & H & H')]]; [discriminate|]. exfalso.
        injection H as <- <-. destruct H'; contradiction.
  - replace (match m with 1 => _ | _ => _ end) with (@Err (nd A) ValueError) by (destruct m as [|[|]]; reflexivity).
    split; [|reflexivity]. intros [_ [H|(ax0 & m0 & H & _)]]; discriminate.
Qed.

(** ** Gathering along an axis *)

Lemma filter_keys_In (sh : shape) axis ax :
  In ax (dkeys (filter (fun kv => negb (String.eqb (fst kv) axis)) sh)) <-> In ax (dkeys sh) /\ ax <> axis.
Proof.
  unfold dkeys. rewrite !in_map_iff. split.
  - intros [[k v] [<- H]]. apply filter_In in H as [H1 H2]. cbn [fst] in *. split; [exists (k, v); auto|].
    destruct (String.eqb_spec k axis); [discriminate|auto].
  - intros [[[k v] [<- H]] Hne]. exists (k, v). split; auto. apply filter_In. split; auto. cbn [fst] in *.
    destruct (String.eqb_spec k axis); [contradiction|auto].
Qed.

Lemma filter_dget (sh : shape) axis ax : ax <> axis ->
  dget (filter (fun kv => negb (String.eqb (fst kv) axis)) sh) ax = dget sh ax.
Proof.
  intros H. induction sh as [|[k v] sh IH]; auto. cbn [filter fst dget].
  destruct (String.eqb_spec k axis) as [->|N]; cbn [negb].
  - rewrite IH. destruct (String.eqb_spec ax axis); [contradiction|auto].
  - cbn [dget]. destruct (String.eqb ax k); auto.
Qed.

Lemma filter_nodup (sh : shape) (f : string * nat -> bool) : NoDup (dkeys sh) -> NoDup (dkeys (filter f sh)).
Proof.
  induction sh as [|[k v] sh IH]; auto. intros H. inversion H as [|? ? H1 H2]; subst. cbn [filter].
  destruct (f (k, v)); auto. cbn [dkeys map fst]. constructor; [|now apply IH].
  intros Hin. apply H1. unfold dkeys in *. apply in_map_iff in Hin as [x [E Hx]]. apply filter_In in Hx as [Hx _].
  apply in_map_iff. eauto.
Qed.

Lemma combine_map_map {T U V} (f : T -> U) (g : T -> V) l : combine (map f l) (map g l) = map (fun x => (f x, g x)) l.
Proof. induction l; simpl; f_equal; auto. Qed.

Theorem take_along_axis_spec {A} (arr : operand A) (indices : operand Z) (axis : string) :
  op_wf arr -> op_wf indices ->
  let a := normalize arr in
  let i := normalize indices in
  let without (sh : shape) := filter (fun kv => negb (String.eqb (fst kv) axis)) sh in
  let n := size_of (sshape a) axis in
  (~ In axis (s_axes a) -> na_take_along_axis arr indices axis = Err ValueError) /\
  (In axis (s_axes a) ->
   match broadcast_shapes [without (sshape a); without (sshape i)] with
   | Err _ => na_take_along_axis arr indices axis = Err ValueError
   | Ok sh =>
       ((forall e, inside e (sshape i) -> in_range n (at_ i e)) ->
        exists r, na_take_along_axis arr indices axis = Ok r /\ wf r /\
          sshape r = (axis, size_of (sshape i) axis) :: sh /\
          forall e, inside e (sshape r) ->
            exists p, index_is n (bat i e) p /\ at_ r e = bat a (set_env e axis p)) /\
       (~ (forall e, inside e (sshape i) -> in_range n (at_ i e)) ->
        na_take_along_axis arr indices axis = Err IndexError)
   end).
Proof.
  intros Wo Wi0 a i without n.
  assert (W : wf a) by (unfold a; destruct arr; [exact Wo|repeat constructor]).
  assert (Wi : wf i) by (unfold i; destruct indices; [exact Wi0|repeat constructor]).
  unfold na_take_along_axis. fold a i. fold (without (sshape a)) (without (sshape i)).
  destruct (smem axis (s_axes a)) eqn:EM; cbn [negb].
  2: { split; [reflexivity|]. intros H. apply smem_In in H. congruence. }
  apply smem_In in EM. split; [intros H; contradiction|]. intros _.
  assert (NS : Forall (fun s : shape => NoDup (dkeys s)) [without (sshape a); without (sshape i)]).
  { repeat constructor; apply filter_nodup; now apply wf_nodup. }
  destruct (broadcast_shapes [without (sshape a); without (sshape i)]) as [sh|er] eqn:EB; cbn [bind].
  2: { destruct (broadcast_shapes_total _ NS) as [[? H]|H]; congruence. }
  destruct (broadcast_shapes_ok _ _ NS EB) as (ND & K & SZ).
  assert (KI : forall ax, In ax (dkeys sh) <-> (In ax (s_axes a) \/ In ax (s_axes i)) /\ ax <> axis).
  { intros ax. rewrite K, first_appearance_In. cbn [map concat]. rewrite app_nil_r, in_app_iff. unfold without.
    rewrite !filter_keys_In, !wf_keys by auto. tauto. }
  assert (NA : NoDup (axis :: dkeys sh)). { constructor; auto. rewrite KI. tauto. }
  assert (IA : incl (s_axes a) (axis :: dkeys sh)).
  { intros ax H. destruct (string_dec ax axis) as [->|N]; [left; auto|right; apply KI; auto]. }
  assert (II : incl (s_axes i) (axis :: dkeys sh)).
  { intros ax H. destruct (string_dec ax axis) as [->|N]; [left; auto|right; apply KI; auto]. }
  destruct (align_sub a _ W NA IA) as (na & EA & SA & GA). destruct (align_sub i _ Wi NA II) as (ni & EI & SI & GI).
  rewrite EA, EI. cbn [bind]. unfold np_take_along_axis0. rewrite SA, SI. cbn [map tl hd].
  assert (DS : forall ax m, In (ax, m) sh -> bsize (asize a ax) (asize i ax) = Some m).
  { intros ax m Hm. assert (Hne : ax <> axis). { apply (in_map fst) in Hm. change (In ax (dkeys sh)) in Hm. now apply KI in Hm. }
    apply SZ in Hm as [_ [C1 C2]]. unfold sizes_of in C1, C2. cbn [flat_map] in C1, C2. unfold without in C1, C2.
    rewrite !filter_dget in C1, C2 by auto. rewrite app_nil_r in C1, C2. unfold asize, bsize.
    destruct (dget (sshape a) ax) as [x|], (dget (sshape i) ax) as [y|]; cbn [app] in C1, C2.
    - assert (Cx := C1 x (or_introl eq_refl)). assert (Cy := C1 y (or_intror (or_introl eq_refl))).
      destruct (Nat.eqb_spec x y), (Nat.eqb_spec x 1), (Nat.eqb_spec y 1); f_equal; try lia.
      assert (m = 1) by (apply C2; intros q [<-|[<-|[]]]; auto). lia.
    - assert (Cx := C1 x (or_introl eq_refl)). destruct (Nat.eqb_spec x 1); [f_equal|].
      + subst x. symmetry. apply C2. intros q [<-|[]]; auto.
      + cbn. f_equal. lia.
    - assert (Cx := C1 y (or_introl eq_refl)). destruct (Nat.eqb_spec 1 y); [f_equal|].
      + subst y. symmetry. apply C2. intros q [<-|[]]; auto.
      + cbn. f_equal. lia.
    - cbn. f_equal. symmetry. apply C2. intros q []. }
  assert (BZ : bshape2 (map (asize a) (dkeys sh)) (map (asize i) (dkeys sh)) = Some (dvals sh)).
  { rewrite bshape2_zip by (now rewrite !map_length). clear - DS. induction sh as [|[k v] sh IH]; auto.
    cbn [dkeys dvals map fst snd bzip]. rewrite (DS k v) by (left; auto). unfold dkeys, dvals in IH. rewrite IH; auto.
    intros ax m H. apply DS. right; auto. }
  rewrite BZ.
  assert (AV := aligned_valid i _ ni (asize a axis) Wi NA EI). change (asize a axis) with n in *.
  destruct (forallb (zvalid n) (ravel ni)) eqn:EF; cbn [bind].
  2: { split; [|reflexivity]. intros H. apply AV in H. congruence. }
  assert (RNG := proj1 AV eq_refl).
  split; [|intros H; contradiction]. intros _.
  set (nn := mkNd _ _).
  assert (Wr : wf (mkS nn (axis :: dkeys sh))).
  { split; auto. unfold nn. cbn [s_nd s_axes nshape length]. unfold dkeys, dvals. now rewrite !map_length. }
  rewrite mk_sarr_intro by (apply Wr).
  eexists. split; [reflexivity|]. split; [exact Wr|].
  assert (SR : sshape (mkS nn (axis :: dkeys sh)) = (axis, size_of (sshape i) axis) :: sh).
  { unfold sshape at 1, nn. cbn [s_nd s_axes nshape combine]. f_equal. apply combine_dkeys_dvals. }
  split; [exact SR|]. intros e He. rewrite SR in He.
  assert (IC : inside (bclamp (sshape i) e) (sshape i)).
  { intros ax m Hm. assert (Hm' := dget_NoDup _ _ _ (wf_nodup i Wi) Hm). unfold bclamp. rewrite Hm'.
    destruct (Nat.eq_dec m 1) as [->|M1]; [lia|].
    replace (match m with 1 => 0 | _ => e ax end) with (e ax) by (destruct m as [|[|]]; auto; contradiction).
    destruct (string_dec ax axis) as [->|Hne].
    - apply He. left. unfold size_of. rewrite Hm'. reflexivity.
    - assert (Hk : In ax (dkeys sh)).
      { apply KI. split; auto. right. rewrite <- wf_keys by auto. apply dget_Some_key. eauto. }
      apply dget_Some_key in Hk as [q Hq]. apply dget_In in Hq. assert (B := DS _ _ Hq). assert (L := He ax q (or_intror Hq)).
      unfold asize at 2 in B. rewrite Hm' in B. unfold bsize in B.
      destruct (Nat.eqb_spec (asize a ax) m), (Nat.eqb_spec (asize a ax) 1), (Nat.eqb_spec m 1); try congruence; lia. }
  specialize (RNG _ IC). change (at_ i (bclamp (sshape i) e)) with (bat i e) in RNG.
  exists (znorm n (bat i e)). assert (IX := znorm_index_is _ _ RNG). split; auto.
  unfold at_ at 1, nn. cbn [s_nd s_axes nget map tl].
  assert (BG := bget_aligned i (axis :: dkeys sh) ni e Wi NA EI). cbn [map] in BG. rewrite BG.
  rewrite bidx_same_length by (now rewrite !map_length). rewrite combine_map_map, map_map.
  set (e' := fun x => if String.eqb x axis then znorm n (bat i e) else if asize a x =? 1 then 0 else e x).
  transitivity (nget na (map e' (axis :: dkeys sh))).
  { f_equal. cbn [map]. f_equal; [unfold e'; now rewrite String.eqb_refl|]. apply map_ext_in. intros x Hx. cbn [fst snd].
    unfold e'. destruct (String.eqb_spec x axis) as [->|]; auto. apply KI in Hx. tauto. }
  rewrite GA. unfold bat. unfold at_. f_equal. apply map_ext_in. intros x Hx.
  rewrite bclamp_asize by (now rewrite wf_keys). unfold e', set_env. destruct (String.eqb_spec x axis) as [->|]; auto.
  change (asize a axis) with n. destruct (Nat.eqb_spec n 1); auto. destruct IX as [IX _]. lia.
Qed.

(** ** Cumulative functions with [out] *)

Theorem cumulative_out {A B} (scan : list A -> B) (initial : bool) (a : sarr A) (axis : string) (o r : sarr B) :
  wf a -> s_axes o = s_axes a -> wf o -> na_cumulative scan initial a (Some [axis]) None = Ok r ->
  (sshape o = sshape r -> na_cumulative scan initial a (Some [axis]) (Some o) = Ok r) /\
  (sshape o <> sshape r -> na_cumulative scan initial a (Some [axis]) (Some o) = Err ValueError).
Proof.
  intros W E Wo. unfold na_cumulative. cbn [axis_normalized]. rewrite wf_keys by auto. rewrite E.
  destruct (negb (smem axis (s_axes a))); [discriminate|].
  destruct (index_of axis (s_axes a)) as [p|]; cbn [bind]; [|discriminate].
  destruct (negb (p <? ndim (s_nd a))); [discriminate|]. cbn [negb].
  set (n := np_along _ _ _ _). intros H. apply mk_sarr_ok in H as [-> [H1 H2]].
  assert (Q : sshape o = sshape (mkS n (s_axes a)) <-> nshape (s_nd o) = nshape n).
  { split.
    - intros Q. rewrite <- (wf_vals o Wo), Q. apply (wf_vals (mkS n (s_axes a))). split; auto.
    - intros Q. unfold sshape. rewrite E, Q. reflexivity. }
  destruct (idx_eqb (nshape (s_nd o)) (nshape n)) eqn:EI; cbn [negb].
  - apply idx_eqb_true in EI. split; [reflexivity|]. intros N. exfalso. apply N. now apply Q.
  - split; [|reflexivity]. intros N. apply Q in N. apply idx_eqb_true in N. congruence.
Qed.
