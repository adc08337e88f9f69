(** Facts about the elementwise array functions. *)
From Coq Require Import String List Arith ZArith Bool Lia.
From Verif Require Import Base BaseFacts Numpy NumpyFacts Shapes Scalar Elementwise Spec
     ShapesFacts AlignFacts SetitemFacts.
Import ListNotations.
Open Scope nat_scope.
Open Scope list_scope.

(** ** Broadcasting of aligned shapes *)

Lemma asize_size_of {A} (a : sarr A) ax : asize a ax = size_of (sshape a) ax.
Proof. reflexivity. Qed.

Definition aligned_shape (axes : list string) (o : option shape) : list nat :=
  match o with Some s => map (size_of s) axes | None => [] end.

Lemma olist_In {A} (l : list (option A)) x : In x (flat_map olist l) <-> In (Some x) l.
Proof.
  rewrite in_flat_map. split.
  - intros [[y|] [H1 H2]]; simpl in H2; [destruct H2 as [->|[]]; auto|destruct H2].
  - intros H. exists (Some x). simpl. auto.
Qed.

Lemma bjoin_sizes (l : list (option shape)) ax k :
  bjoin (map (fun o => match o with Some s => size_of s ax | None => 1 end) l) k <->
  bjoin (sizes_of (flat_map olist l) ax) k.
Proof.
  revert k; induction l as [|o l IH]; intros k; simpl; [tauto|].
  rewrite bjoin_cons. destruct o as [s|]; cbn [olist app].
  - unfold sizes_of in *. cbn [flat_map app]. unfold size_of. destruct (dget s ax) as [n|].
    + cbn [app]. rewrite bjoin_cons. split; intros [j [H1 H2]]; exists j; split; auto; now apply IH.
    + cbn [app]. split.
      * intros [j [H1 H2]]. apply bsize_spec in H2 as [_ H2]. simpl in H2. subst. now apply IH.
      * intros H. exists k. split; [now apply IH|]. apply bsize_spec. auto.
  - split.
    + intros [j [H1 H2]]. apply bsize_spec in H2 as [_ H2]. simpl in H2. subst. now apply IH.
    + intros H. exists k. split; [now apply IH|]. apply bsize_spec. auto.
Qed.

Lemma aligned_shape_rank axes l :
  Forall (fun x => length x = length axes \/ x = []) (map (aligned_shape axes) l).
Proof.
  apply Forall_forall. intros x Hx. apply in_map_iff in Hx as [[s|] [<- _]]; simpl; auto.
  left. apply map_length.
Qed.

Lemma nth_aligned axes o i :
  i < length axes ->
  nth i (aligned_shape axes o) 1 = match o with Some s => size_of s (nth i axes ""%string) | None => 1 end.
Proof.
  intros H. destruct o; simpl; [|destruct i; auto]. now rewrite map_nth_in with (d := ""%string).
Qed.

Lemma map_nth_aligned axes l i :
  i < length axes ->
  map (fun x => nth i x 1) (map (aligned_shape axes) l) =
  map (fun o => match o with Some s => size_of s (nth i axes ""%string) | None => 1 end) l.
Proof.
  intros H. rewrite map_map. apply map_ext. intros o. now apply nth_aligned.
Qed.

(** Broadcasting the aligned shapes is broadcasting by name. *)
Lemma bshapes_named axes (l : list (option shape)) :
  NoDup axes -> Forall (fun s => NoDup (dkeys s)) (flat_map olist l) ->
  Forall (fun s : shape => incl (dkeys s) axes) (flat_map olist l) ->
  match broadcast_shapes (flat_map olist l) with
  | Ok sh => bshapes (map (aligned_shape axes) l) =
             Some (match flat_map olist l with [] => [] | _ => map (size_of sh) axes end)
  | Err _ => bshapes (map (aligned_shape axes) l) = None
  end.
Proof.
  intros ND N I. destruct (broadcast_shapes (flat_map olist l)) as [sh|e] eqn:E.
  - destruct (broadcast_shapes_ok _ _ N E) as (NDs & K & S).
    destruct (bshapes_intro (length axes) (map (aligned_shape axes) l) (map (size_of sh) axes)) as [t [Et Ht]].
    + apply aligned_shape_rank.
    + apply map_length.
    + intros i Hi. rewrite map_nth_aligned by auto. rewrite map_nth_in with (d := ""%string) by auto.
      apply bjoin_sizes. set (ax := nth i axes ""%string). unfold size_of.
      destruct (dget sh ax) as [k|] eqn:Ek.
      * apply common_size_bjoin. apply dget_In in Ek. now apply S in Ek.
      * apply dget_None in Ek. rewrite K, first_appearance_In in Ek.
        enough (Z : sizes_of (flat_map olist l) ax = []) by (rewrite Z; now apply bjoin_nil).
        destruct (sizes_of (flat_map olist l) ax) as [|n r] eqn:Es; auto. exfalso.
        assert (Hn : In n (sizes_of (flat_map olist l) ax)) by (rewrite Es; simpl; auto).
        apply sizes_of_In in Hn as [s [Hs1 Hs2]]. apply Ek. apply in_concat.
        exists (dkeys s). split; [now apply in_map|]. apply dget_Some_key; eauto.
    + rewrite Et. f_equal. destruct (flat_map olist l) as [|s0 l0] eqn:El.
      * destruct (bshapes_rank 0 (map (aligned_shape axes) l) t) as [L|L]; auto.
        { apply Forall_forall. intros x Hx. apply in_map_iff in Hx as [[s|] [<- Hs]]; auto.
          apply olist_In in Hs. rewrite El in Hs. destruct Hs. }
        now apply length_zero_iff_nil.
      * destruct Ht as [Ht|[Ht1 Ht2]]; auto. subst t.
        assert (Hs : In (Some s0) l) by (apply olist_In; rewrite El; simpl; auto).
        assert (L := bshapes_len _ _ (aligned_shape axes (Some s0)) Et).
        simpl in L. rewrite map_length in L. destruct axes; [auto|].
        simpl in L. exfalso. eapply Nat.nle_succ_0. apply L.
        change (size_of s0 s :: map (size_of s0) axes) with (aligned_shape (s :: axes) (Some s0)). now apply in_map.
  - destruct (bshapes (map (aligned_shape axes) l)) as [t|] eqn:Et; auto. exfalso.
    destruct (broadcast_shapes_total _ N) as [[r Hr]|Hc]; [congruence|].
    apply broadcast_shapes_conflict in Hc as (ax & n & m & Hn & Hm & D1 & D2 & D3); auto.
    assert (Hax : In ax axes).
    { apply sizes_of_In in Hn as [s [Hs1 Hs2]]. rewrite Forall_forall in I. apply (I s Hs1).
      apply dget_Some_key; eauto. }
    assert (Hi := proj1 (spos_lt _ _) Hax).
    assert (J := bshapes_join (length axes) _ t (aligned_shape_rank axes l) Et _ Hi).
    rewrite map_nth_aligned, nth_spos in J by auto. apply bjoin_sizes in J.
    destruct J as [J _]. rewrite Forall_forall in J. destruct (J n Hn), (J m Hm); congruence.
Qed.

(** Broadcasting to a shape that is one of the operands. *)
Lemma bshapes_fits n l s :
  Forall (fun x => length x = n \/ x = []) l -> In s l -> length s = n ->
  (bshapes l = Some s <->
   Forall (fun x => forall i, i < n -> nth i x 1 = 1 \/ nth i x 1 = nth i s 1) l).
Proof.
  intros R Hs L. split.
  - intros E. apply Forall_forall. intros x Hx i Hi.
    destruct (bshapes_join n l s R E i Hi) as [J _]. rewrite Forall_forall in J. apply J.
    now apply (in_map (fun x => nth i x 1)).
  - intros F. destruct (bshapes_intro n l s R L) as [t [Et Ht]].
    + intros i Hi. split.
      * apply Forall_forall. intros m Hm. apply in_map_iff in Hm as [x [<- Hx]].
        rewrite Forall_forall in F. now apply F.
      * intros A. rewrite Forall_forall in A. apply A. now apply (in_map (fun x => nth i x 1)).
    + rewrite Et. f_equal. destruct Ht as [|[-> Ht]]; auto.
      assert (B := bshapes_len _ _ s Et Hs). simpl in B.
      destruct s; auto. simpl in B. lia.
Qed.

Lemma fits_in_sizes (s t : shape) :
  NoDup (dkeys s) -> NoDup (dkeys t) ->
  (fits_in s t <-> incl (dkeys s) (dkeys t) /\
    forall ax, In ax (dkeys t) -> size_of s ax = 1 \/ size_of s ax = size_of t ax).
Proof.
  intros Ns Nt. split.
  - intros F. split.
    + intros ax Hax. apply dget_Some_key in Hax as [n Hn]. apply dget_In in Hn.
      destruct (F ax n Hn) as [m [Hm _]]. now apply (in_map fst) in Hm.
    + intros ax _. unfold size_of at 1 2. destruct (dget s ax) as [n|] eqn:En; auto.
      destruct (F ax n (dget_In _ _ _ En)) as [m [Hm [C|C]]]; auto. right.
      unfold size_of. now rewrite (dget_NoDup _ _ _ Nt Hm).
  - intros [I F] ax n Hin.
    assert (Hk : In ax (dkeys t)) by (apply I; now apply (in_map fst) in Hin).
    specialize (F ax Hk). unfold size_of in F. rewrite (dget_NoDup _ _ _ Ns Hin) in F.
    apply dget_Some_key in Hk as [m Hm]. rewrite Hm in F. exists m. split; auto. now apply dget_In.
Qed.

Lemma map_size_of_keys (s : shape) : NoDup (dkeys s) -> map (size_of s) (dkeys s) = dvals s.
Proof.
  intros N. unfold dkeys, dvals. rewrite map_map. apply map_ext_in. intros [k v] Hin. simpl.
  unfold size_of. now rewrite (dget_NoDup _ _ _ N Hin).
Qed.

(** ** where *)

Lemma normalize_wf {A} (o : operand A) : op_wf o -> wf (normalize o).
Proof. destruct o; simpl; auto. intros _. split; [constructor|reflexivity]. Qed.

Lemma normalize_at {A} (o : operand A) e : bat (normalize o) e = op_at o e.
Proof. destruct o; reflexivity. Qed.

Lemma normalize_shape {A} (o : operand A) : sshape (normalize o) = op_shape o.
Proof. destruct o; reflexivity. Qed.

(** one array of a list that broadcasts *)
Lemma aligned_in {A} (a : sarr A) (l : list shape) sh :
  wf a -> Forall (fun s => NoDup (dkeys s)) l -> broadcast_shapes l = Ok sh -> In (sshape a) l ->
  exists n, ndarray_aligned a (dkeys sh) = Ok n /\
    nshape n = aligned_shape (dkeys sh) (Some (sshape a)) /\
    forall e, bget n (map e (dkeys sh)) = bat a e.
Proof.
  intros W N E Hin. destruct (broadcast_shapes_ok _ _ N E) as (ND & K & _).
  destruct (align_sub a (dkeys sh)) as [n (E1 & E2 & _)]; auto.
  - intros ax Hax. rewrite K, first_appearance_In. apply in_concat. exists (dkeys (sshape a)).
    split; [now apply in_map|]. now rewrite wf_keys.
  - exists n. split; [auto|split; [auto|]]. intros e. now apply bget_aligned.
Qed.

Lemma broadcast_shapes_bound (l : list shape) sh :
  Forall (fun s => NoDup (dkeys s)) l -> broadcast_shapes l = Ok sh ->
  Forall (fun s : shape => incl (dkeys s) (dkeys sh)) l.
Proof.
  intros N E. destruct (broadcast_shapes_ok _ _ N E) as (_ & K & _).
  apply Forall_forall. intros s Hs ax Hax. rewrite K, first_appearance_In. apply in_concat.
  exists (dkeys s). split; auto. now apply in_map.
Qed.

Lemma flat_map_olist_Some {A} (l : list A) : flat_map olist (map Some l) = l.
Proof. induction l; simpl; congruence. Qed.

Lemma where_spec {A} (c : operand bool) (x y : operand A) :
  op_wf c -> op_wf x -> op_wf y ->
  match broadcast_shapes [op_shape c; op_shape x; op_shape y] with
  | Ok sh => exists r, na_where c x y = Ok r /\ wf r /\ sshape r = sh /\
               forall e, at_ r e = if op_at c e then op_at x e else op_at y e
  | Err _ => na_where c x y = Err ValueError
  end.
Proof.
  intros Wc Wx Wy. unfold na_where. rewrite !normalize_shape.
  assert (N : Forall (fun s : shape => NoDup (dkeys s)) [op_shape c; op_shape x; op_shape y]).
  { rewrite <- !normalize_shape. repeat constructor; apply wf_nodup; now apply normalize_wf. }
  destruct (broadcast_shapes [op_shape c; op_shape x; op_shape y]) as [sh|er] eqn:E.
  - destruct (broadcast_shapes_ok _ _ N E) as (ND & K & _).
    destruct (aligned_in (normalize c) _ sh (normalize_wf c Wc) N E) as [nc (C1 & C2 & C3)];
      [rewrite normalize_shape; simpl; auto|].
    destruct (aligned_in (normalize x) _ sh (normalize_wf x Wx) N E) as [nx (X1 & X2 & X3)];
      [rewrite normalize_shape; simpl; auto|].
    destruct (aligned_in (normalize y) _ sh (normalize_wf y Wy) N E) as [ny (Y1 & Y2 & Y3)];
      [rewrite normalize_shape; simpl; auto|].
    cbn [bind]. rewrite C1, X1, Y1. cbn [bind]. unfold np_where.
    assert (B := bshapes_named (dkeys sh) (map Some [op_shape c; op_shape x; op_shape y]) ND).
    rewrite flat_map_olist_Some, E in B.
    specialize (B N (broadcast_shapes_bound _ _ N E)).
    rewrite C2, X2, Y2, !normalize_shape.
    change (bshapes [aligned_shape (dkeys sh) (Some (op_shape c)); aligned_shape (dkeys sh) (Some (op_shape x));
                     aligned_shape (dkeys sh) (Some (op_shape y))])
      with (bshapes (map (aligned_shape (dkeys sh)) (map Some [op_shape c; op_shape x; op_shape y]))).
    rewrite B, map_size_of_keys by auto. cbn [bind].
    rewrite mk_sarr_intro; auto; [|unfold dkeys, dvals; cbn [nshape]; now rewrite !map_length].
    eexists. split; [reflexivity|]. split; [split; auto; unfold dkeys, dvals; cbn; now rewrite !map_length|].
    split; [apply combine_dkeys_dvals|]. intros e. unfold at_. cbn [s_nd s_axes nget].
    now rewrite C3, X3, Y3, !normalize_at.
  - cbn [bind]. destruct (broadcast_shapes_total _ N) as [[r Hr]|Hr]; congruence.
Qed.

(** ** copyto *)

Lemma op_fits_aligned {A} (o : operand A) (sh : shape) :
  op_wf o -> NoDup (dkeys sh) ->
  ((exists n, op_aligned (dkeys sh) o = Ok n /\ bto_rev (rev (nshape n)) (rev (dvals sh)) = true) <->
   op_fits o sh).
Proof.
  intros W N. destruct o as [a|x]; cbn [op_aligned op_fits op_wf] in *.
  - now apply fits_aligned.
  - split; auto. intros _. exists (scalar x). split; auto.
Qed.

Lemma op_aligned_err {A} (o : operand A) axes e : op_aligned axes o = Err e -> e = ValueError.
Proof.
  destruct o as [a|x]; simpl; [|discriminate]. intros H.
  destruct (incl_sdec (s_axes a) axes) as [I|I].
  - unfold ndarray_aligned in H. destruct (axes_eqb axes (s_axes a)); [discriminate|].
    rewrite mapM_index_of in H by auto. discriminate.
  - rewrite align_err in H by auto. congruence.
Qed.

Lemma copyto_spec {A} (dst : sarr A) (src : operand A) (w : operand bool) :
  wf dst -> op_wf src -> op_wf w ->
  (op_fits src (sshape dst) /\ op_fits w (sshape dst) ->
   exists r, na_copyto true dst src w = Ok r /\ wf r /\ sshape r = sshape dst /\
     forall e, at_ r e = if op_at w e then op_at src e else at_ dst e) /\
  (~ (op_fits src (sshape dst) /\ op_fits w (sshape dst)) ->
   na_copyto true dst src w = Err ValueError).
Proof.
  intros W Ws Ww.
  assert (N := wf_nodup dst W). assert (K := wf_keys dst W). assert (V := wf_vals dst W).
  assert (Fs := op_fits_aligned src (sshape dst) Ws N).
  assert (Fw := op_fits_aligned w (sshape dst) Ww N).
  rewrite K, V in *. unfold na_copyto.
  destruct (op_aligned (s_axes dst) src) as [s|es] eqn:Es; cbn [bind].
  2: { split; [intros [H _]; apply Fs in H as [n [H _]]; discriminate|].
       intros _. f_equal. now apply op_aligned_err in Es. }
  destruct (op_aligned (s_axes dst) w) as [m|em] eqn:Em; cbn [bind].
  2: { split; [intros [_ H]; apply Fw in H as [n [H _]]; discriminate|].
       intros _. f_equal. now apply op_aligned_err in Em. }
  unfold np_copyto. split.
  - intros [H1 H2]. apply Fs in H1 as [n [H1 B1]]. apply Fw in H2 as [n' [H2 B2]].
    injection H1 as <-. injection H2 as <-. rewrite B1, B2. cbn [andb bind].
    eexists. split; [reflexivity|]. split; [destruct W; split; auto|]. split; [reflexivity|].
    intros e. unfold at_. cbn [s_nd s_axes nget].
    now rewrite (op_aligned_ok src _ _ e Ws N Es), (op_aligned_ok w _ _ e Ww N Em).
  - intros H. destruct (bto_rev (rev (nshape s)) _) eqn:B1; cbn [andb]; [|reflexivity].
    destruct (bto_rev (rev (nshape m)) _) eqn:B2; cbn [andb]; [|reflexivity].
    exfalso. apply H. split; [apply Fs; eauto|apply Fw; eauto].
Qed.

(** ** clip *)

Section Clip.
Context {A : Type} (minimum maximum : A -> A -> A).

Lemma broadcast_to_fits (a : sarr A) sh :
  wf a -> NoDup (dkeys sh) ->
  (fits_in (sshape a) sh ->
   exists r, na_broadcast_to a sh false = Ok r /\ wf r /\ sshape r = sh /\ forall e, at_ r e = bat a e) /\
  (~ fits_in (sshape a) sh -> na_broadcast_to a sh false = Err ValueError).
Proof.
  intros W N. assert (F := fits_aligned a sh W N). split.
  - intros H. destruct (na_broadcast_to_intro a sh W N) as [r Hr].
    + apply fits_in_sizes in H as [H _]; auto; [|now apply wf_nodup]. now rewrite wf_keys in H.
    + intros ax n Hn. destruct (H ax n (dget_In _ _ _ Hn)) as [m [Hm [C|C]]]; subst; auto.
    + exists r. destruct (na_broadcast_to_ok a sh r W N Hr) as (_ & _ & H1 & H2 & H3). auto.
  - intros H. destruct (na_broadcast_to a sh false) as [r|e] eqn:E.
    + exfalso. apply H. unfold na_broadcast_to in E. cbn [bind] in E.
      apply bind_ok in E as [n [E1 E2]]. apply F. exists n. split; auto.
      unfold broadcast_to in E2. destruct (bto_rev _ _); auto. discriminate.
    + f_equal. unfold na_broadcast_to in E. cbn [bind] in E.
      destruct (ndarray_aligned a (dkeys sh)) eqn:E1; cbn [bind] in E.
      * unfold broadcast_to in E. destruct (bto_rev _ _); cbn [bind] in E; [|congruence].
        now apply mk_sarr_err in E.
      * assert (op_aligned (dkeys sh) (OpArr a) = Err e0) by auto.
        apply op_aligned_err in H0. congruence.
Qed.

Lemma clip_spec (a : operand A) (lo hi : option (operand A)) (out : option (sarr A)) :
  op_wf a -> match lo with Some b => op_wf b | None => True end ->
  match hi with Some b => op_wf b | None => True end ->
  match out with Some o => wf o | None => True end ->
  let sh := match out with Some o => sshape o | None => op_shape a end in
  let ok := op_fits a sh /\ match lo with Some b => op_fits b sh | None => True end
            /\ match hi with Some b => op_fits b sh | None => True end in
  (ok -> exists r, na_clip minimum maximum a lo hi out = Ok r /\ wf r /\ sshape r = sh /\
     forall e, at_ r e =
       let v := match lo with Some b => maximum (op_at a e) (op_at b e) | None => op_at a e end in
       match hi with Some b => minimum v (op_at b e) | None => v end) /\
  (~ ok -> na_clip minimum maximum a lo hi out = Err ValueError).
Proof.
  intros Wa Wl Wh Wo sh ok.
  assert (N : NoDup (dkeys sh)).
  { unfold sh. destruct out; [now apply wf_nodup|]. rewrite <- normalize_shape. apply wf_nodup. now apply normalize_wf. }
  assert (FF : forall o : operand A, fits_in (sshape (normalize o)) sh <-> op_fits o sh).
  { intros [b|v]; simpl; [tauto|]. split; auto. intros _ ? ? []. }
  assert (SH : match out with Some o => sshape o | None => sshape (normalize a) end = sh).
  { unfold sh. destruct out; auto. apply normalize_shape. }
  unfold na_clip. rewrite SH.
  destruct (broadcast_to_fits (normalize a) sh (normalize_wf a Wa) N) as [A1 A2].
  rewrite FF in A1, A2.
  assert (BB : forall o : option (operand A), match o with Some b => op_wf b | None => True end ->
     let g := match o with
              | Some b => r <- na_broadcast_to (normalize b) sh false ;; Ok (Some (s_nd r))
              | None => Ok None end in
     (match o with Some b => op_fits b sh | None => True end ->
      exists r, g = Ok r /\ match o, r with
           | Some b, Some n => forall e, nget n (map e (dkeys sh)) = op_at b e
           | None, None => True | _, _ => False end) /\
     (~ match o with Some b => op_fits b sh | None => True end -> g = Err ValueError)).
  { intros [b|] Wb; cbv zeta.
    - destruct (broadcast_to_fits (normalize b) sh (normalize_wf b Wb) N) as [B1 B2].
      rewrite FF in B1, B2. split.
      + intros H. destruct (B1 H) as [r (-> & R1 & R2 & R3)]. cbn [bind]. eexists; split; [reflexivity|].
        cbv beta iota. intros e. rewrite <- normalize_at, <- R3. unfold at_.
        rewrite <- R2. now rewrite wf_keys.
      + intros H. now rewrite (B2 H).
    - split; [|tauto]. intros _. exists None. auto. }
  destruct (BB lo Wl) as [L1 L2]. destruct (BB hi Wh) as [H1 H2]. cbv zeta in *. clear BB.
  split.
  - intros (Fa & Fl & Fh).
    destruct (A1 Fa) as [r (-> & R1 & R2 & R3)]. destruct (L1 Fl) as [rl (-> & Rl)]. destruct (H1 Fh) as [rh (-> & Rh)].
    cbn [bind]. assert (LS : length (dkeys sh) = length (nshape (s_nd r))).
    { rewrite <- R2, wf_keys by auto. apply R1. }
    rewrite mk_sarr_intro by auto. eexists. split; [reflexivity|]. split; [split; auto|].
    split.
    + unfold sshape. cbn. rewrite <- R2, wf_keys by auto. reflexivity.
    + intros e. unfold at_. cbn [s_nd s_axes nget np_clip].
      assert (Ra : nget (s_nd r) (map e (dkeys sh)) = op_at a e).
      { rewrite <- normalize_at, <- R3. unfold at_. rewrite <- R2. now rewrite wf_keys. }
      rewrite Ra. destruct lo, rl; try contradiction; destruct hi, rh; try contradiction;
        rewrite ?Rl, ?Rh; reflexivity.
  - intros H.
    assert (D : forall P : operand A -> Prop, True) by auto.
    assert (DD : forall o : operand A, op_wf o -> {op_fits o sh} + {~ op_fits o sh}).
    { intros [b|v] Wb; simpl in *; [|left; exact I].
      destruct (na_broadcast_to b sh false) eqn:Eb.
      - left. destruct (broadcast_to_fits b sh Wb N) as [_ B2].
        destruct (in_dec string_dec "" []) as [[]|_].
        apply fits_aligned; auto. unfold na_broadcast_to in Eb. cbn [bind] in Eb.
        apply bind_ok in Eb as [n [E1 E2]]. exists n. split; auto.
        unfold broadcast_to in E2. destruct (bto_rev _ _); auto. discriminate.
      - right. intros F. destruct (proj1 (broadcast_to_fits b sh Wb N) F) as [r (E & _)]. congruence. }
    destruct (DD a Wa) as [Fa|Fa]; [|rewrite (A2 Fa); reflexivity].
    destruct (A1 Fa) as [r (-> & _)]. cbn [bind].
    assert (Dl : {match lo with Some b => op_fits b sh | None => True end} + {~ match lo with Some b => op_fits b sh | None => True end})
      by (destruct lo; auto).
    assert (Dh : {match hi with Some b => op_fits b sh | None => True end} + {~ match hi with Some b => op_fits b sh | None => True end})
      by (destruct hi; auto).
    destruct Dl as [Fl|Fl]; [|now rewrite (L2 Fl)]. destruct (L1 Fl) as [rl (-> & _)]. cbn [bind].
    destruct Dh as [Fh|Fh]; [|now rewrite (H2 Fh)]. exfalso. apply H. unfold ok. auto.
Qed.
End Clip.

(** ** Ufuncs with [out] and [where] *)

Lemma dict_eqb_same_keys (d1 d2 : shape) :
  NoDup (dkeys d2) -> dkeys d1 = dkeys d2 -> (dict_eqb d1 d2 = true <-> d1 = d2).
Proof.
  intros N K. unfold dict_eqb. rewrite andb_true_iff, forallb_forall. split.
  - intros [_ F]. rewrite <- (combine_dkeys_dvals d1), <- (combine_dkeys_dvals d2), K. f_equal.
    assert (N1 : NoDup (dkeys d1)) by (rewrite K; auto).
    rewrite <- (map_size_of_keys d1 N1), <- (map_size_of_keys d2 N), K. apply map_ext_in. intros ax Hax.
    assert (H1 : In ax (dkeys d1)) by (rewrite K; auto).
    apply dget_Some_key in H1 as [v Hv]. apply dget_Some_key in Hax as [w Hw].
    specialize (F _ (dget_In _ _ _ Hv)). cbn [fst snd] in F. rewrite Hw in F. apply Nat.eqb_eq in F.
    unfold size_of. now rewrite Hv, Hw.
  - intros ->. rewrite Nat.eqb_refl. split; auto. intros [k v] Hin. simpl.
    rewrite (dget_NoDup _ _ _ N Hin). apply Nat.eqb_refl.
Qed.

Lemma op_shapes_olist {A} (l : list (operand A)) :
  op_shapes l = flat_map olist (map (fun o => match o with OpArr a => Some (sshape a) | OpNum _ => None end) l).
Proof. unfold op_shapes. induction l as [|[a|x] l IH]; simpl; congruence. Qed.

Lemma aligned_shape_ops {A} axes (l : list (operand A)) :
  map (fun o => match o with OpArr a => map (asize a) axes | OpNum _ => [] end) l =
  map (aligned_shape axes) (map (fun o => match o with OpArr a => Some (sshape a) | OpNum _ => None end) l).
Proof. rewrite map_map. apply map_ext. intros [a|x]; reflexivity. Qed.

Lemma first_appearance_absorb l m : incl m l -> first_appearance (l ++ m) = first_appearance l.
Proof.
  revert l. induction m as [|x m IH] using rev_ind; intros l I; [now rewrite app_nil_r|].
  rewrite app_assoc, first_appearance_snoc.
  assert (smem x (l ++ m) = true).
  { apply smem_In. apply in_or_app. left. apply I. apply in_or_app; simpl; auto. }
  rewrite H. apply IH. intros y Hy. apply I. apply in_or_app; auto.
Qed.

Lemma flat_map_olist_none {B C} (l : list C) : flat_map olist (map (fun _ => @None B) l) = [].
Proof. induction l; auto. Qed.

Lemma mapM_op_aligned_err {A} (l : list (operand A)) axes e :
  mapM (op_aligned axes) l = Err e -> e = ValueError.
Proof.
  induction l as [|o l IH]; simpl; [discriminate|].
  destruct (op_aligned axes o) eqn:E; cbn [bind].
  - destruct (mapM (op_aligned axes) l); cbn [bind]; [discriminate|]. intros H. injection H as <-. auto.
  - intros H. injection H as <-. now apply op_aligned_err in E.
Qed.

Lemma Forall2_combine_none {A B} (P : A -> B -> Prop) (f : A -> B) l :
  (forall x, In x l -> P x (f x)) -> Forall2 P l (map f l).
Proof. induction l; simpl; intros H; constructor; auto. Qed.

Lemma mapM_mk_sarr {B} (rs : list (nd B)) axes :
  NoDup axes -> Forall (fun r => length axes = length (nshape r)) rs ->
  mapM (fun r => mk_sarr r axes) rs = Ok (map (fun r => mkS r axes) rs).
Proof.
  intros N F. apply mapM_map. rewrite Forall_forall in F. intros r Hr. apply mk_sarr_intro; auto.
Qed.

Lemma combine_map_none {X Y} (l : list X) :
  combine l (map (fun _ => @None Y) l) = map (fun x => (x, None)) l.
Proof. induction l; simpl; congruence. Qed.

Lemma map_combine_none {B} (rs : list (sarr B)) (l : list (option (sarr B))) :
  length rs = length l -> Forall (fun o => o = None) l ->
  map (fun p => match snd p with Some o => mkS (s_nd (fst p)) (s_axes o) | None => fst p end) (combine rs l) = rs.
Proof.
  revert l. induction rs; destruct l; simpl; intros L F; auto; try discriminate.
  inversion F; subst. simpl. f_equal. apply IHrs; auto.
Qed.

Lemma ufunc_where_spec {A B} (uninit : list nat -> B) (fs : list (list A -> B))
      (inputs : list (operand A)) (w : sarr bool) (sh0 : shape) :
  Forall op_wf inputs -> wf w -> broadcast_shapes (op_shapes inputs) = Ok sh0 ->
  let r := na_ufunc uninit fs inputs (Some w) (map (fun _ => None) fs) in
  (~ incl (s_axes w) (dkeys sh0) -> r = Err ValueError) /\
  (incl (s_axes w) (dkeys sh0) ->
   match broadcast_shapes (op_shapes inputs ++ [sshape w]) with
   | Err _ => r = Err ValueError
   | Ok sh => exists rs, r = Ok rs /\
       Forall2 (fun f r => wf r /\ sshape r = sh /\
         forall e, bat w e = true -> at_ r e = f (map (fun o => op_at o e) inputs)) fs rs
   end).
Proof.
  intros Wi Ww E0 r. subst r. unfold na_ufunc. rewrite flat_map_olist_none.
  unfold shape_broadcasted. rewrite E0. cbn [bind].
  split; intros I; [now rewrite align_err|].
  destruct (ops_aligned inputs sh0 Wi E0) as [ND [ins (M1 & M2 & _ & M3)]].
  destruct (align_sub w (dkeys sh0) Ww ND I) as [m (Am & Sm & _)].
  assert (Bm := fun e => bget_aligned w (dkeys sh0) m e Ww ND Am).
  rewrite Am. cbn [bind]. rewrite M1. cbn [bind].
  unfold np_ufunc_out. rewrite map_map.
  change (fun x : list A -> B => option_map s_nd None) with (fun _ : list A -> B => @None (nd B)).
  rewrite flat_map_olist_none. cbn [olist map]. rewrite app_nil_r, M2, aligned_shape_ops, Sm.
  set (L := map (fun o => match o with OpArr a => Some (sshape a) | OpNum _ => None end) inputs ++ [Some (sshape w)]).
  assert (EL : map (aligned_shape (dkeys sh0)) (map (fun o => match o with OpArr a => Some (sshape a) | OpNum _ => None end) inputs)
               ++ [map (asize w) (dkeys sh0)] = map (aligned_shape (dkeys sh0)) L).
  { unfold L. rewrite map_app. reflexivity. }
  rewrite EL.
  assert (FL : flat_map olist L = op_shapes inputs ++ [sshape w]).
  { unfold L. rewrite flat_map_app, <- op_shapes_olist. reflexivity. }
  assert (N : Forall (fun s : shape => NoDup (dkeys s)) (op_shapes inputs ++ [sshape w])).
  { apply Forall_app. split; [now apply op_shapes_nodup|]. constructor; auto. now apply wf_nodup. }
  assert (BN := bshapes_named (dkeys sh0) L ND). rewrite FL in BN. specialize (BN N).
  assert (IL : Forall (fun s : shape => incl (dkeys s) (dkeys sh0)) (op_shapes inputs ++ [sshape w])).
  { apply Forall_app. split; [apply broadcast_shapes_bound; auto; now apply op_shapes_nodup|].
    constructor; auto. now rewrite wf_keys. }
  specialize (BN IL).
  destruct (broadcast_shapes (op_shapes inputs ++ [sshape w])) as [sh|er] eqn:E.
  2: { rewrite BN. reflexivity. }
  destruct (broadcast_shapes_ok _ _ N E) as (NDs & K & _).
  destruct (broadcast_shapes_ok _ _ (op_shapes_nodup inputs Wi) E0) as (_ & K0 & _).
  assert (KK : dkeys sh = dkeys sh0).
  { rewrite K, map_app, concat_app, K0. apply first_appearance_absorb.
    cbn [map concat]. rewrite app_nil_r, wf_keys by auto. intros ax Hax. apply I in Hax.
    rewrite K0 in Hax. now apply (first_appearance_In (concat (map dkeys (op_shapes inputs)))) in Hax. }
  destruct (op_shapes inputs ++ [sshape w]) as [|s1 l1] eqn:El; [destruct (op_shapes inputs); discriminate|].
  rewrite BN. cbn [bind forallb]. rewrite <- KK, map_size_of_keys by auto.
  assert (LK : length (dkeys sh) = length (dvals sh)) by (unfold dkeys, dvals; now rewrite !map_length).
  rewrite mapM_mk_sarr; auto.
  2: { apply Forall_forall. intros x Hx. apply in_map_iff in Hx as [p [<- _]]. exact LK. }
  cbn [bind]. eexists. split; [reflexivity|].
  rewrite map_combine_none.
  2: { rewrite !map_length, combine_length, map_length. lia. }
  2: { apply Forall_forall. intros x Hx. apply in_map_iff in Hx as [? [<- _]]. auto. }
  rewrite combine_map_none, !map_map. apply Forall2_combine_none. intros f Hf.
  split; [split; auto|]. split; [apply combine_dkeys_dvals|].
  intros e He. unfold at_. cbn [s_nd s_axes nget fst snd]. rewrite KK, Bm, He. f_equal. apply M3.
Qed.

Lemma map_olist_nd {B} (outs : list (option (sarr B))) :
  flat_map olist (map (option_map s_nd) outs) = map s_nd (flat_map olist outs).
Proof. induction outs as [|[o|] l IH]; simpl; congruence. Qed.

Lemma ufunc_out_spec {A B} (uninit : list nat -> B) (fs : list (list A -> B))
      (inputs : list (operand A)) (w : option (sarr bool)) (outs : list (option (sarr B))) (o1 : sarr B) :
  Forall op_wf inputs -> match w with Some m => wf m | None => True end ->
  length fs = length outs ->
  In (Some o1) outs ->
  (forall o, In (Some o) outs -> wf o /\ s_axes o = s_axes o1) ->
  let sh := sshape o1 in
  let ok := (forall o, In (Some o) outs -> sshape o = sh) /\ Forall (fun i => op_fits i sh) inputs /\
            match w with Some m => fits_in (sshape m) sh | None => True end in
  (ok -> exists rs, na_ufunc uninit fs inputs w outs = Ok rs /\
     Forall2 (fun p r => wf r /\ sshape r = sh /\
       forall e, inside e sh ->
         (match w with Some m => bat m e | None => true end = true ->
            at_ r e = fst p (map (fun i => op_at i e) inputs)) /\
         (match w with Some m => bat m e | None => true end = false ->
            forall o, snd p = Some o -> at_ r e = at_ o e)) (combine fs outs) rs) /\
  (~ ok -> na_ufunc uninit fs inputs w outs = Err ValueError).
Proof.
  intros Wi Ww LO H1 HO sh ok.
  destruct (HO o1 H1) as [W1 _]. assert (N := wf_nodup o1 W1). fold sh in N.
  assert (K1 := wf_keys o1 W1). assert (V1 := wf_vals o1 W1). fold sh in K1, V1.
  unfold na_ufunc.
  destruct (flat_map olist outs) as [|o l] eqn:EO.
  { exfalso. apply olist_In in H1. rewrite EO in H1. destruct H1. }
  assert (HO2 : forall o', In o' (o :: l) -> wf o' /\ s_axes o' = s_axes o1).
  { intros o' Ho'. apply HO. apply olist_In. now rewrite EO. }
  assert (HK : forall o', In o' (o :: l) -> dkeys (sshape o') = s_axes o1).
  { intros o' Ho'. destruct (HO2 o' Ho') as [H2 H3]. now rewrite wf_keys. }
  (* all outputs have the same shape *)
  destruct (existsb (fun o' => negb (dict_eqb (sshape o') (sshape o))) l) eqn:EX.
  { cbn [bind]. split; [|reflexivity]. intros [Hs _]. exfalso.
    apply existsb_exists in EX as [o' [Ho' Hn]]. apply negb_true_iff in Hn.
    assert (sshape o' = sshape o).
    { transitivity sh; [|symmetry]; apply Hs; apply olist_In; rewrite EO; simpl; auto. }
    assert (dict_eqb (sshape o') (sshape o) = true); [|congruence].
    apply dict_eqb_same_keys; auto; [apply wf_nodup; apply HO2; simpl; auto|congruence]. }
  assert (HS : forall o', In o' (o :: l) -> sshape o' = sh).
  { assert (G : forall o', In o' (o :: l) -> sshape o' = sshape o).
    { intros o' [<-|Ho']; auto.
      assert (D : dict_eqb (sshape o') (sshape o) = true).
      { destruct (dict_eqb (sshape o') (sshape o)) eqn:D; auto. exfalso.
        enough (existsb (fun o' => negb (dict_eqb (sshape o') (sshape o))) l = true) by congruence.
        apply existsb_exists. exists o'. rewrite D. auto. }
      apply dict_eqb_same_keys in D; auto; [apply wf_nodup; apply HO2; simpl; auto|].
      rewrite !HK; simpl; auto. }
    intros o' Ho'. rewrite (G o' Ho'). symmetry. apply (G o1). rewrite <- EO. now apply olist_In. }
  cbn [bind]. rewrite (HS o) by (simpl; auto).
  assert (OKS : forall o', In (Some o') outs -> sshape o' = sh).
  { intros o' Ho'. apply HS. rewrite <- EO. now apply olist_In. }
  assert (WS : forall o', In o' (o :: l) -> nshape (s_nd o') = dvals sh).
  { intros o' Ho'. rewrite <- (HS o' Ho'). symmetry. apply wf_vals. now apply HO2. }
  (* the mask *)
  assert (FD : forall T (b : sarr T), wf b ->
     (fits_in (sshape b) sh /\ exists n, ndarray_aligned b (dkeys sh) = Ok n /\ bto_rev (rev (nshape n)) (rev (dvals sh)) = true) \/
     (~ fits_in (sshape b) sh /\ (ndarray_aligned b (dkeys sh) = Err ValueError \/
        exists n, ndarray_aligned b (dkeys sh) = Ok n /\ bto_rev (rev (nshape n)) (rev (dvals sh)) = false))).
  { intros T b Wb. assert (F := fits_aligned b sh Wb N).
    destruct (ndarray_aligned b (dkeys sh)) as [n|eb] eqn:Eb.
    - destruct (bto_rev (rev (nshape n)) (rev (dvals sh))) eqn:Ebt.
      + left. split; [apply F; eauto|]. eauto.
      + right. split; [|eauto]. rewrite <- F. intros [n' [E' B']]. congruence.
    - right. split; [rewrite <- F; intros [n' [E' B']]; congruence|]. left.
      assert (Eo : op_aligned (dkeys sh) (OpArr b) = Err eb) by auto. apply op_aligned_err in Eo. congruence. }
  set (mm := match w with Some w0 => m <- ndarray_aligned w0 (dkeys sh) ;; Ok (Some m) | None => Ok None end).
  assert (MM : (exists mo, mm = Ok mo /\
      (match w with Some m => fits_in (sshape m) sh | None => True end <->
       Forall (fun n => bto_rev (rev (nshape n)) (rev (dvals sh)) = true) (olist mo)) /\
      (Forall (fun n : nd bool => length (nshape n) = length (dvals sh)) (olist mo)) /\
      forall e, match mo with Some n => bget n (map e (dkeys sh)) | None => true end =
                match w with Some m => bat m e | None => true end) \/
      (mm = Err ValueError /\ ~ match w with Some m => fits_in (sshape m) sh | None => True end)).
  { unfold mm. destruct w as [m|].
    - assert (LEN : forall n, ndarray_aligned m (dkeys sh) = Ok n -> length (nshape n) = length (dvals sh)).
      { intros n En. destruct (align_ok m _ n Ww N En) as (_ & S & _). rewrite S, map_length.
        unfold dkeys, dvals. now rewrite !map_length. }
      destruct (FD bool m Ww) as [[F [n [E1 E2]]]|[F [E1|[n [E1 E2]]]]]; rewrite E1; cbn [bind].
      + left. exists (Some n). split; auto. split; [split; auto; intros _; constructor; auto|].
        split; [constructor; auto|]. intros e. now apply bget_aligned.
      + right. auto.
      + left. exists (Some n). split; auto. split; [|split; [constructor; auto|intros e; now apply bget_aligned]].
        split; [tauto|]. intros FA. inversion FA. congruence.
    - left. exists None. split; auto. split; [split; auto; constructor|]. split; [constructor|auto]. }
  destruct MM as [[mo (-> & Fm & Lm & Gm)]|[-> Fm]]; cbn [bind].
  2: { split; [|reflexivity]. intros (_ & _ & F). contradiction. }
  (* the inputs *)
  destruct (mapM (op_aligned (dkeys sh)) inputs) as [ins|ei] eqn:Ei; cbn [bind].
  2: { split; [|intros _; f_equal; now apply mapM_op_aligned_err in Ei].
       intros (_ & F & _). exfalso.
       assert (is_ok (mapM (op_aligned (dkeys sh)) inputs) = true); [|rewrite Ei in *; discriminate].
       rewrite (mapM_map (op_aligned (dkeys sh)) (fun o => match op_aligned (dkeys sh) o with Ok n => n | Err _ => s_nd (normalize o) end)); auto.
       intros i Hi. rewrite Forall_forall in F, Wi. specialize (F i Hi). specialize (Wi i Hi).
       apply (proj2 (op_fits_aligned i sh Wi N)) in F as [n [En _]]. now rewrite En. }
  assert (Fi := mapM_ok _ _ _ Ei).
  assert (Gi : forall e, map (fun n => bget n (map e (dkeys sh))) ins = map (fun o => op_at o e) inputs).
  { intros e. clear Ei ok. induction Fi; simpl; auto. inversion Wi; subst. f_equal; auto.
    now apply op_aligned_ok. }
  assert (FFi : Forall (fun i => op_fits i sh) inputs <->
                Forall (fun n : nd A => bto_rev (rev (nshape n)) (rev (dvals sh)) = true) ins).
  { clear Ei ok Gi. induction Fi; [split; constructor|]. inversion Wi; subst.
    rewrite !Forall_cons_iff. rewrite IHFi by auto. rewrite <- (op_fits_aligned x sh) by auto.
    split; intros [G1 G2]; split; auto; [|eauto]. destruct G1 as [n [En Bn]]. congruence. }
  assert (LI : Forall (fun n : nd A => length (nshape n) = length (dvals sh) \/ nshape n = []) ins).
  { clear Ei ok Gi FFi. induction Fi; constructor; inversion Wi; subst; auto.
    destruct x as [b|v]; simpl in H; [left|right; now injection H as <-].
    destruct (align_ok b _ y H3 N H) as (_ & S & _). rewrite S, map_length. unfold dkeys, dvals. now rewrite !map_length. }
  unfold np_ufunc_out. rewrite map_olist_nd, EO.
  set (SH := map nshape ins ++ map nshape (olist mo) ++ map nshape (map s_nd (o :: l))).
  assert (BT : forall s, length s = length (dvals sh) \/ s = [] ->
     (bto_rev (rev s) (rev (dvals sh)) = true <->
      forall i, i < length (dvals sh) -> nth i s 1 = 1 \/ nth i s 1 = nth i (dvals sh) 1)).
  { intros s [Ls| ->].
    - rewrite bto_Forall2 by auto. split.
      + intros F i Hi. assert (G := Forall2_nth _ _ _ 1 1 i F). cbv beta in G. rewrite Ls in G. specialize (G Hi). lia.
      + intros G. apply Forall2_nth_intro with (d1 := 1) (d2 := 1); auto. intros i Hi.
        rewrite Ls in Hi. specialize (G i Hi). lia.
    - simpl. split; auto. intros _ i _. destruct i; auto. }
  assert (R : Forall (fun x => length x = length (dvals sh) \/ x = []) SH).
  { unfold SH. apply Forall_app. split; [|apply Forall_app; split].
    - apply Forall_map. exact LI.
    - apply Forall_map. eapply Forall_impl; [|exact Lm]. cbv beta. auto.
    - rewrite map_map. apply Forall_map. apply Forall_forall. intros o' Ho'. left. now rewrite WS. }
  assert (IN : In (dvals sh) SH).
  { unfold SH. apply in_or_app. right. apply in_or_app. right. rewrite map_map.
    apply in_map_iff. exists o. split; [apply WS|]; simpl; auto. }
  assert (BF := bshapes_fits (length (dvals sh)) SH (dvals sh) R IN eq_refl).
  assert (OKB : ok <-> bshapes SH = Some (dvals sh)).
  { rewrite BF. unfold ok, SH. rewrite !Forall_app, !Forall_map, FFi, Fm. split.
    - intros (_ & F1 & F2). split; [|split].
      + rewrite Forall_forall in *. intros n Hn. apply BT; auto.
      + rewrite Forall_forall in *. intros n Hn. apply BT; auto.
      + apply Forall_forall. intros o' Ho' i Hi. right. now rewrite WS.
    - intros (F1 & F2 & _). split; auto. split.
      + rewrite Forall_forall in *. intros n Hn. apply BT; auto.
      + rewrite Forall_forall in *. intros n Hn. apply BT; auto. }
  split.
  - intros OK. apply OKB in OK. rewrite OK.
    assert (FA : forallb (fun o0 => idx_eqb (nshape o0) (dvals sh)) (map s_nd (o :: l)) = true).
    { apply forallb_forall. intros n Hn. apply in_map_iff in Hn as [o' [<- Ho']].
      unfold idx_eqb. rewrite WS by auto. destruct (list_eq_dec _ _ _); congruence. }
    rewrite FA. cbn [bind].
    assert (LK : length (dkeys sh) = length (dvals sh)) by (unfold dkeys, dvals; now rewrite !map_length).
    rewrite mapM_mk_sarr; auto.
    2: { apply Forall_forall. intros x Hx. apply in_map_iff in Hx as [p [<- _]]. exact LK. }
    cbn [bind]. eexists. split; [reflexivity|].
    rewrite map_map.
    assert (HOA : forall o', In (Some o') outs -> s_axes o' = dkeys sh) by (intros o' Ho'; rewrite K1; now apply HO).
    clear - LO HOA N LK Gm Gi. revert outs LO HOA.
    induction fs as [|f fs IH]; intros [|oo outs] LO HOA; simpl in *; try discriminate; constructor.
    + destruct oo as [o'|].
      * rewrite (HOA o') by auto. split; [split; auto|]. split; [apply combine_dkeys_dvals|].
        intros e He. unfold at_. cbn [s_nd s_axes nget fst snd option_map]. rewrite Gm, Gi. split.
        -- intros ->. reflexivity.
        -- intros -> o2 Eo2. injection Eo2 as <-. now rewrite (HOA o') by auto.
      * split; [split; auto|]. split; [apply combine_dkeys_dvals|].
        intros e He. unfold at_. cbn [s_nd s_axes nget fst snd option_map]. rewrite Gm, Gi. split.
        -- intros ->. reflexivity.
        -- intros _ o2 Eo2. discriminate.
    + apply IH; auto.
  - intros NOK. destruct (bshapes SH) as [s|] eqn:ES; auto.
    destruct (forallb _ _) eqn:FA; auto. exfalso. apply NOK, OKB. f_equal.
    rewrite forallb_forall in FA. specialize (FA (s_nd o)). simpl in FA. specialize (FA (or_introl eq_refl)).
    unfold idx_eqb in FA. destruct (list_eq_dec _ _ _); [|discriminate]. rewrite WS in e by (simpl; auto). auto.
Qed.
