(** Facts about uniform and stratified random samples (Strata.v). *)
From Coq Require Import String List Arith ZArith QArith Qcanon Bool Lia.
From Verif Require Import Base BaseFacts Numpy NumpyFacts Shapes Scalar Elementwise Derived Interp Random Strata Spec SpecNumeric.
From Verif Require Import ShapesFacts AlignFacts ElementwiseFacts SortingFacts AlongFacts DerivedFacts InterpFacts RandomFacts LinspaceFacts.
Import ListNotations.
Open Scope nat_scope.
Open Scope list_scope.

(** ** Uniform samples *)

Lemma normalize_aligned {A} (o : operand A) (axes : list string) :
  op_wf o -> NoDup axes -> incl (dkeys (op_shape o)) axes ->
  exists n, ndarray_aligned (normalize o) axes = Ok n /\ forall e, bget n (map e axes) = op_at o e.
Proof.
  intros W N I. assert (Wn := normalize_wf o W).
  assert (I' : incl (s_axes (normalize o)) axes) by (rewrite <- (wf_keys _ Wn), normalize_shape; exact I).
  destruct (align_sub _ _ Wn N I') as [n (E & _)]. exists n. split; auto.
  intros e. rewrite (bget_aligned _ _ _ e Wn N E). apply normalize_at.
Qed.

Lemma op_nodup {A} (o : operand A) : op_wf o -> NoDup (dkeys (op_shape o)).
Proof. destruct o; [apply wf_nodup|constructor]. Qed.

Lemma broadcast_keys l sh s : Forall (fun s : shape => NoDup (dkeys s)) l -> broadcast_shapes l = Ok sh -> In s l ->
  incl (dkeys s) (dkeys sh).
Proof.
  intros F E H ax Hax. destruct (broadcast_shapes_ok _ _ F E) as (_ & K & _). rewrite K. apply first_appearance_In.
  apply in_concat. exists (dkeys s). split; auto. now apply in_map.
Qed.

Lemma broadcast_nodup l sh : Forall (fun s : shape => NoDup (dkeys s)) l -> broadcast_shapes l = Ok sh -> NoDup (dkeys sh).
Proof. intros F E. destruct (broadcast_shapes_ok _ _ F E) as (X & _). exact X. Qed.

Lemma op_shapes_keys {A} (l : list (operand A)) sb o : Forall op_wf l -> shape_broadcasted l = Ok sb -> In o l ->
  incl (dkeys (op_shape o)) (dkeys sb).
Proof.
  intros W E H. destruct o as [a|x]; [|intros ax []].
  apply (broadcast_keys (op_shapes l)); auto. { apply op_shapes_nodup. auto. } now apply in_op_shapes.
Qed.

Theorem uniform_ok u (low high : operand Qc) (shape_random : shape) seed (sb sd : shape) :
  op_wf low -> op_wf high -> NoDup (dkeys shape_random) ->
  shape_broadcasted [low; high] = Ok sb -> broadcast_shapes [sb; shape_random] = Ok sd ->
  exists r, na_uniform u low high shape_random seed = Ok r /\ wf r /\ sshape r = sd /\
    forall e, at_ r e = (op_at low e + (op_at high e - op_at low e) * u seed (dvals sd) (map e (dkeys sd)))%Qc.
Proof.
  intros Wl Wh N Eb Ed. assert (W : Forall op_wf [low; high]) by (repeat (apply Forall_cons; auto)).
  assert (Nb : NoDup (dkeys sb)) by (apply (broadcast_nodup (op_shapes [low; high])); [now apply op_shapes_nodup|exact Eb]).
  assert (F : Forall (fun s : shape => NoDup (dkeys s)) [sb; shape_random]) by (repeat (apply Forall_cons; auto)).
  assert (Nd := broadcast_nodup _ _ F Ed).
  assert (I : forall o, In o [low; high] -> incl (dkeys (op_shape o)) (dkeys sd)).
  { intros o Ho. eapply incl_tran; [apply (op_shapes_keys _ _ _ W Eb Ho)|]. apply (broadcast_keys _ _ _ F Ed). now left. }
  destruct (normalize_aligned low _ Wl Nd (I low (or_introl eq_refl))) as [nl (El & Gl)].
  destruct (normalize_aligned high _ Wh Nd (I high (or_intror (or_introl eq_refl)))) as [nh (Eh & Gh)].
  unfold na_uniform, r_scalar. rewrite Eb. cbn [bind].
  rewrite Ed. cbn [bind mapM]. rewrite El. cbn [bind]. rewrite Eh. cbn [bind].
  rewrite mk_sarr_intro; cbn [nshape]; auto; [|unfold dkeys, dvals; now rewrite !map_length].
  eexists. split; [reflexivity|]. split; [split; cbn; auto; unfold dkeys, dvals; now rewrite !map_length|].
  split; [unfold sshape; cbn; apply combine_dkeys_dvals|].
  intros e. unfold at_, np_uniform. cbn [s_nd nget s_axes]. now rewrite Gl, Gh.
Qed.

Lemma uniform_no_shape u (low high : operand Qc) shape_random seed er :
  shape_broadcasted [low; high] = Err er -> na_uniform u low high shape_random seed = Err er.
Proof. intros E. unfold na_uniform, r_scalar. now rewrite E. Qed.

(** ** Stratified samples *)

Lemma op_neg_ok (x : operand Qc) : op_wf x ->
  exists r, op_neg x = Ok r /\ op_wf r /\ same_shape (op_shape r) (op_shape x) /\
    forall e, inside e (op_shape x) -> op_at r e = (- op_at x e)%Qc.
Proof.
  intros W. destruct x as [a|x]; cbn [op_neg].
  - assert (AT : ops_attain [OpArr a] (sshape a)).
    { split; [now apply wf_nodup|]. split; [apply Forall_cons; auto|]. split.
      - intros o [<- |[]]. now apply same_shape_covered.
      - intros ax n Hn. exists (OpArr a). simpl; auto. }
    destruct (ufunc_attained (un Qcopp (qz 0)) _ _ AT) as [r (E & Wr & S & G)]. rewrite E. cbn [bind].
    exists (OpArr r). split; auto. split; auto. split; auto. intros e He. cbn [op_at].
    rewrite (op_same_at r _ e Wr S He), G. reflexivity.
  - exists (OpNum (- x)%Qc). repeat split; auto.
Qed.

Section Strata.
  Context (u : option Z -> list nat -> list nat -> Qc) (start stop : operand Qc) (sh : shape) (axis : string).
  Context (Ws : op_wf start) (Wt : op_wf stop) (SH : broadcast_shapes [op_shape start; op_shape stop] = Ok sh)
          (NI : ~ In axis (dkeys sh)).

  (** the offset of the samples of [linspace] in their pieces *)
  Definition offset (centers : bool) : Qc := if centers then half else qint 0.

  Lemma linspace_any num endpoint centers : pieces num endpoint centers <> 0%Z ->
    exists r, na_linspace start stop axis (Z.of_nat num) endpoint centers = Ok r /\ wf r /\
      same_shape (sshape r) (sh ++ [(axis, num)]) /\
      forall e, inside e (sshape r) ->
        at_ r e = (op_at start e + (qnat (e axis) + offset centers) * piece (op_at start e) (op_at stop e) num endpoint centers)%Qc.
  Proof.
    intros HP. destruct centers.
    - now apply (linspace_centers start stop sh axis Ws Wt SH NI).
    - destruct (linspace_edges start stop sh axis Ws Wt SH NI num endpoint) as [r (E & W & S & G)].
      exists r. split; auto. split; auto. split; auto. intros e He. rewrite (proj2 (G e He) HP). f_equal. f_equal.
      unfold offset. change (qint 0) with (Q2Qc 0). ring.
  Qed.

  Lemma snoc_nodup num : NoDup (dkeys (sh ++ [(axis, num)])).
  Proof.
    assert (N : NoDup (dkeys sh)).
    { apply (broadcast_nodup [op_shape start; op_shape stop]); auto.
      apply Forall_cons; [now apply op_nodup|]. apply Forall_cons; [now apply op_nodup|auto]. }
    unfold dkeys. rewrite map_app. cbn [map fst]. apply NoDup_app_cons || idtac.
    revert NI N. clear. unfold dkeys. induction (map fst sh) as [|k l IH]; intros H N; cbn.
    - constructor; [intros []|constructor].
    - inversion N as [|k' l' Hk Hl]; subst. constructor.
      + rewrite in_app_iff. intros [K|[K|[]]]; [now apply Hk|]. apply H. left. auto.
      + apply IH; auto. intros K. apply H. now right.
  Qed.

  Theorem stratified_ok num endpoint centers seed : pieces num endpoint centers <> 0%Z ->
    exists r sd, na_stratified u start stop axis (Z.of_nat num) endpoint centers seed = Ok r /\ wf r /\
      same_shape (sshape r) (sh ++ [(axis, num)]) /\ NoDup (dkeys sd) /\ same_shape sd (sshape r) /\
      forall e, inside e (sshape r) ->
        at_ r e = (op_at start e + (qnat (e axis) + offset centers + (u seed (dvals sd) (map e (dkeys sd)) - half))
                                   * piece (op_at start e) (op_at stop e) num endpoint centers)%Qc.
  Proof.
    intros HP.
    destruct (linspace_any num endpoint centers HP) as [a (Ea & Wa & Sa & Ga)].
    destruct (step_spec start stop sh Ws Wt SH (Z.of_nat num) endpoint centers HP) as [h (Eh & Wh & S1 & Gh)].
    destruct (op_neg_ok h Wh) as [m (Em & Wm & Sm & Gm)].
    assert (Nh : NoDup (dkeys sh)).
    { apply (broadcast_nodup [op_shape start; op_shape stop]); auto.
      apply Forall_cons; [now apply op_nodup|]. apply Forall_cons; [now apply op_nodup|auto]. }
    assert (Sm' : same_shape (op_shape m) sh) by (eapply same_shape_trans; eauto).
    destruct (op_bin_attained Qcdiv m (OpNum (qz 2)) sh) as [low (El & Wl & Sl & Gl)].
    { apply attain_left; auto; [exact I|]. apply covered_nil. }
    destruct (op_bin_attained Qcdiv h (OpNum (qz 2)) sh) as [high (Ehi & Whi & Shi & Ghi)].
    { apply attain_left; auto; [exact I|]. apply covered_nil. }
    destruct (ops_attain_ok [low; high] sh) as [sb (Eb & Nb & Sb)].
    { apply attain_left; auto. now apply same_shape_covered. }
    assert (Na := wf_nodup _ Wa).
    destruct (bs_attained [sb; sshape a] (sshape a)) as [sd (Ed & Nd & Sd)]; auto.
    { split.
      - intros s [<- |[<- |[]]]; split; auto; [|now apply same_shape_covered].
        intros ax n Hn. apply Sb in Hn. assert (Hn' : In (ax, n) (sshape a)) by (apply Sa, in_app_iff; auto).
        split; auto. now apply (in_map fst) in Hn'.
      - intros ax n Hn. exists (sshape a). simpl; auto. }
    destruct (uniform_ok u low high (sshape a) seed sb sd Wl Whi Na Eb Ed) as [d (Edl & Wd & Sdl & Gd)].
    destruct (ufunc_attained (bin Qcplus (qz 0)) [OpArr a; OpArr d] (sshape a)) as [r (Er & Wr & Sr & Gr)].
    { apply attain_left; auto; [now apply same_shape_refl || (intros ax n; tauto)|].
      apply same_shape_covered. cbn. rewrite Sdl. exact Sd. }
    exists r, sd. unfold na_stratified, na_strata. rewrite Ea. cbn [bind]. rewrite Eh. cbn [bind]. rewrite Em. cbn [bind].
    rewrite El. cbn [bind]. rewrite Ehi. cbn [bind]. rewrite Edl. cbn [bind].
    split; auto. split; auto. split; [eapply same_shape_trans; eauto|]. split; auto.
    split; [eapply same_shape_trans; [exact Sd|]; apply same_shape_sym; exact Sr|].
    intros e He. assert (Hea : inside e (sshape a)) by (apply (same_shape_inside _ (sshape r)); auto; now apply same_shape_sym).
    destruct (in_snoc_shape start stop sh axis a num e Sa Hea) as [H1 H2] || destruct (in_snoc_shape sh axis a num e Sa Hea) as [H1 H2].
    rewrite Gr. cbn [map bin op_at]. rewrite (op_same_at a (sshape a) e Wa (fun _ _ => iff_refl _) Hea).
    rewrite (op_same_at d (sshape a) e Wd); auto; [|rewrite Sdl; exact Sd].
    rewrite Gd, (Ga e Hea), (Gl e H1), (Ghi e H1). rewrite Gm by (eapply same_shape_inside; [exact S1|exact H1]).
    rewrite (Gh e H1).
    change ((op_at stop e - op_at start e) / qz (divisions (Z.of_nat num) endpoint centers))%Qc
      with (piece (op_at start e) (op_at stop e) num endpoint centers).
    cbn [op_at]. set (p := piece _ _ _ _ _). unfold half. change (qint 2) with (qz 2).
    assert (Q2 : (qz 2 <> 0)%Qc) by discriminate.
    replace (qz 2) with (1 + 1)%Qc in * by (apply Qc_is_canon; reflexivity).
    field. exact Q2.
  Qed.

  Theorem stratified_refused num endpoint centers seed :
    pieces num endpoint centers = 0%Z ->
    na_stratified u start stop axis (Z.of_nat num) endpoint centers seed = Err ZeroDivisionError.
  Proof.
    intros HP. assert (E : na_step start stop (Z.of_nat num) endpoint centers = Err ZeroDivisionError).
    { unfold na_step. destruct (op_bin_attained Qcminus stop start sh) as [d (Ed & _)].
      { destruct (broadcast_attain _ _ _ Ws Wt SH) as (N & _ & C & T). split; auto. split; [repeat (apply Forall_cons; auto)|].
        split; [intros o [<- |[<- |[]]]; apply C; simpl; auto|].
        intros ax n Hn. destruct (T ax n Hn) as [o [[<- |[<- |[]]] Ho]]; eexists; split; try exact Ho; simpl; auto. }
      rewrite Ed. cbn [bind]. unfold pieces in HP. destruct endpoint, centers; cbn in HP |- *;
        match goal with |- (if ?b then _ else _) = _ => replace b with true by (symmetry; apply Z.eqb_eq; lia) end; reflexivity. }
    unfold na_stratified, na_strata. destruct centers.
    - unfold na_linspace. now rewrite E.
    - destruct (linspace_edges start stop sh axis Ws Wt SH NI num endpoint) as [r (Er & _)]. rewrite Er. cbn [bind]. now rewrite E.
  Qed.
End Strata.

(** ** Order *)

From Coq Require Import Lqa.
From Verif Require Import SpecStrata.

Lemma this_add a b : this (a + b)%Qc == this a + this b.
Proof. apply Qred_correct. Qed.
Lemma this_mul a b : this (a * b)%Qc == this a * this b.
Proof. apply Qred_correct. Qed.
Lemma this_opp a : this (- a)%Qc == - this a.
Proof. apply Qred_correct. Qed.

Lemma point_between s p x : (0 <= x)%Qc -> (x < 1)%Qc -> between s (s + p)%Qc (s + x * p)%Qc.
Proof.
  intros H1 H2. unfold Qcle, Qclt in *. change (this 0%Qc) with (0 # 1)%Q in *. change (this 1%Qc) with (1 # 1)%Q in *.
  split; [|split].
  - unfold Qcle, Qclt. rewrite !this_add, this_mul. intros H. split; nra.
  - unfold Qcle, Qclt. rewrite !this_add, this_mul. intros H. split; nra.
  - intros H. assert (p = 0)%Qc. { replace p with (s + p - s)%Qc by ring. rewrite <- H. ring. } subst p. ring.
Qed.

Lemma between_split a b c x : between a b x -> ((a < b)%Qc -> (b <= c)%Qc) -> ((b < a)%Qc -> (c <= b)%Qc) -> (a = b -> a = c) ->
  between a c x.
Proof.
  intros (H1 & H2 & H3) L1 L2 L3.
  destruct (Qc_dec a b) as [[L|L]|E].
  - specialize (H1 L). specialize (L1 L). split; [|split].
    + intros _. split; [tauto|]. eapply Qclt_le_trans; [apply H1|exact L1].
    + intros K. exfalso. apply (Qcle_not_lt _ _ L1). eapply Qclt_trans; eauto.
    + intros ->. exfalso. eapply Qcle_not_lt; eauto.
  - specialize (H2 L). specialize (L2 L). split; [|split].
    + intros K. exfalso. apply (Qcle_not_lt _ _ L2). eapply Qclt_trans; eauto.
    + intros _. split; [|tauto]. eapply Qcle_lt_trans; [exact L2|apply H2].
    + intros ->. exfalso. eapply Qcle_not_lt; eauto.
  - specialize (H3 E). specialize (L3 E). subst. split; [|split]; intros K; try (exfalso; eapply Qclt_not_eq; eauto; fail); auto.
Qed.

Lemma qnat_S i : qnat (S i) = (qnat i + 1)%Qc.
Proof. unfold qnat, qint. apply Qc_is_canon. cbn [this Q2Qc Qcplus]. rewrite !Qred_correct, Nat2Z.inj_succ. unfold Z.succ. rewrite inject_Z_plus. reflexivity. Qed.

Lemma half_half : (half + half = 1)%Qc.
Proof. apply Qc_is_canon. reflexivity. Qed.

Lemma pieces_end s t num endpoint centers : pieces num endpoint centers <> 0%Z ->
  (s + qint (pieces num endpoint centers) * piece s t num endpoint centers = t)%Qc.
Proof.
  intros H. unfold piece. assert (Q : (qint (pieces num endpoint centers) <> 0)%Qc).
  { intros K. apply H. change (0%Qc) with (qint 0) in K. apply (f_equal this) in K. cbn [this qint Q2Qc] in K.
    assert (K' : inject_Z (pieces num endpoint centers) == inject_Z 0) by (rewrite <- Qred_correct, K; apply Qred_correct).
    unfold Qeq in K'. cbn in K'. lia. }
  field. exact Q.
Qed.

Lemma qint_le a b : (a <= b)%Z -> (qint a <= qint b)%Qc.
Proof. intros H. change (Qred (inject_Z a) <= Qred (inject_Z b))%Q. rewrite !Qred_correct. unfold Qle, inject_Z. simpl. lia. Qed.

(** a point of a piece is a point of the whole *)
Lemma piece_in_whole s p i n x : (0 <= i)%Z -> (i < n)%Z -> (0 <= x)%Qc -> (x < 1)%Qc ->
  between s (s + qint n * p)%Qc (s + (qint i + x) * p)%Qc.
Proof.
  intros Hi Hn H1 H2.
  assert (L0 : (qint 0 <= qint i)%Qc) by now apply qint_le.
  assert (L1 : (qint (i + 1) <= qint n)%Qc) by (apply qint_le; lia).
  assert (E1 : this (qint (i + 1)) == this (qint i) + (1 # 1)).
  { cbn [this qint Q2Qc]. rewrite !Qred_correct, inject_Z_plus. reflexivity. }
  unfold Qcle, Qclt in *. change (this 0%Qc) with (0 # 1)%Q in *. change (this 1%Qc) with (1 # 1)%Q in *.
  change (this (qint 0)) with (0 # 1)%Q in *. rewrite E1 in L1.
  set (I := this (qint i)) in *. set (N := this (qint n)) in *.
  split; [|split].
  - unfold Qcle, Qclt. rewrite !this_add, !this_mul, this_add. fold I N. intros H.
    assert (0 < this p)%Q by nra. split; nra.
  - unfold Qcle, Qclt. rewrite !this_add, !this_mul, this_add. fold I N. intros H.
    assert (this p < 0)%Q by nra. split; nra.
  - intros H. assert (Z0 : (qint n * p = 0)%Qc). { replace (qint n * p)%Qc with (s + qint n * p - s)%Qc by ring. rewrite <- H. ring. }
    assert (p = 0)%Qc. { destruct (Qcmult_integral _ _ Z0) as [K|K]; auto. exfalso.
      assert (N == 0) by (unfold N; rewrite K; reflexivity). lra. }
    subst p. ring.
Qed.

Section Order.
  Context (u : option Z -> list nat -> list nat -> Qc) (start stop : operand Qc) (sh : shape) (axis : string).
  Context (Ws : op_wf start) (Wt : op_wf stop) (SH : broadcast_shapes [op_shape start; op_shape stop] = Ok sh)
          (NI : ~ In axis (dkeys sh)) (U : unit_interval u).
  Context (num : nat) (endpoint centers : bool) (seed : option Z) (r : sarr Qc).
  Context (E : na_stratified u start stop axis (Z.of_nat num) endpoint centers seed = Ok r).

  Lemma stratified_pieces : pieces num endpoint centers <> 0%Z.
  Proof. intros K. rewrite (stratified_refused u start stop sh axis Ws Wt SH NI num endpoint centers seed K) in E. discriminate. Qed.

  Lemma stratified_value : exists sd, wf r /\ same_shape (sshape r) (sh ++ [(axis, num)]) /\
    forall e, inside e (sshape r) ->
        at_ r e = (op_at start e + (qnat (e axis) + offset centers + (u seed (dvals sd) (map e (dkeys sd)) - half))
                                   * piece (op_at start e) (op_at stop e) num endpoint centers)%Qc.
  Proof.
    destruct (stratified_ok u start stop sh axis Ws Wt SH NI num endpoint centers seed stratified_pieces)
      as (r' & sd & E' & W & S & _ & _ & G). assert (r' = r) by congruence. subst r'. exists sd. auto.
  Qed.

  Theorem stratified_stratum e : inside e (sshape r) ->
    between (stratum_begin (op_at start e) (op_at stop e) num endpoint centers (e axis))
            (stratum_end (op_at start e) (op_at stop e) num endpoint centers (e axis)) (at_ r e).
  Proof.
    intros He. destruct stratified_value as (sd & W & S & G). rewrite (G e He).
    destruct (U seed (dvals sd) (map e (dkeys sd))) as [U1 U2].
    set (x := u seed (dvals sd) (map e (dkeys sd))) in *. set (p := piece _ _ _ _ _).
    replace (op_at start e + (qnat (e axis) + offset centers + (x - half)) * p)%Qc
      with (stratum_begin (op_at start e) (op_at stop e) num endpoint centers (e axis) + x * p)%Qc.
    2:{ unfold stratum_begin, offset. fold p. destruct centers; change (qint 0) with 0%Qc; ring. }
    unfold stratum_end. fold p. now apply point_between.
  Qed.

  Theorem stratified_inside e : centers = true -> inside e (sshape r) ->
    between (op_at start e) (op_at stop e) (at_ r e).
  Proof.
    intros C He. assert (HP := stratified_pieces). destruct stratified_value as (sd & W & S & G). rewrite (G e He).
    destruct (in_snoc_shape sh axis r num e S He) as [_ Hi].
    destruct (U seed (dvals sd) (map e (dkeys sd))) as [U1 U2].
    set (x := u seed (dvals sd) (map e (dkeys sd))) in *.
    assert (PE := pieces_end (op_at start e) (op_at stop e) num endpoint centers HP). set (p := piece _ _ _ _ _) in *.
    replace (op_at start e + (qnat (e axis) + offset centers + (x - half)) * p)%Qc
      with (op_at start e + (qint (Z.of_nat (e axis)) + x) * p)%Qc by (rewrite C; unfold offset, qnat; ring).
    assert (B : between (op_at start e) (op_at start e + qint (pieces num endpoint centers) * p)%Qc
                  (op_at start e + (qint (Z.of_nat (e axis)) + x) * p)%Qc).
    { apply piece_in_whole; auto; [lia|]. unfold pieces. rewrite C. destruct endpoint; lia. }
    now rewrite PE in B.
  Qed.

  Lemma away (o : operand Qc) e i : In o [start; stop] -> op_at o (set_env e axis i) = op_at o e.
  Proof.
    intros Ho. destruct (broadcast_attain _ _ _ Ws Wt SH) as (_ & _ & C & _). specialize (C o Ho).
    assert (Wo : op_wf o) by (destruct Ho as [<- |[<- |[]]]; auto).
    destruct o as [a|x]; auto. cbn [op_at]. apply bat_ext; auto. intros ax Hax. unfold set_env.
    destruct (String.eqb_spec ax axis) as [->|Hx]; auto. exfalso. apply NI.
    rewrite <- wf_keys in Hax by auto. apply in_map_iff in Hax as [[y n] [Ex Hi]]. simpl in Ex. subst y.
    apply (C _ _ Hi).
  Qed.

  Lemma inside_next e : inside e (sshape r) -> S (e axis) < num -> inside (set_env e axis (S (e axis))) (sshape r).
  Proof.
    intros He Hlt. destruct stratified_value as (sd & W & S' & _).
    intros ax n Hi. unfold set_env. destruct (String.eqb_spec ax axis) as [->|Hx]; [|now apply He].
    apply S' in Hi. apply in_app_iff in Hi as [Hi|[Hi|[]]]; [|injection Hi as <-; auto].
    exfalso. apply NI. now apply (in_map fst) in Hi.
  Qed.

  Lemma piece_sign s t : (s < t)%Qc -> (0 < Z.of_nat num)%Z -> (0 < piece s t num endpoint centers)%Qc.
  Proof.
    intros L Hn. assert (HP := stratified_pieces). assert (P1 : (1 <= pieces num endpoint centers)%Z).
    { unfold pieces in *. destruct endpoint, centers; lia. }
    assert (EQ := pieces_end s t num endpoint centers HP). set (p := piece s t num endpoint centers) in *.
    assert (L1 := qint_le _ _ P1). rewrite <- EQ in L.
    unfold Qcle, Qclt in *. rewrite this_add, this_mul in L. change (this (qint 1)) with (1 # 1)%Q in L1.
    change (this 0%Qc) with (0 # 1)%Q. nra.
  Qed.

  Theorem stratified_increasing e : inside e (sshape r) -> S (e axis) < num -> (op_at start e < op_at stop e)%Qc ->
    (at_ r e < at_ r (set_env e axis (S (e axis))))%Qc.
  Proof.
    intros He Hlt L. assert (He' := inside_next e He Hlt).
    assert (B := stratified_stratum e He). assert (B' := stratified_stratum _ He').
    rewrite !away in B' by (simpl; auto). replace (set_env e axis (S (e axis)) axis) with (S (e axis)) in B' by (unfold set_env; now rewrite String.eqb_refl).
    assert (P := piece_sign _ _ L). assert (0 < Z.of_nat num)%Z by lia. specialize (P H).
    assert (EB : stratum_begin (op_at start e) (op_at stop e) num endpoint centers (S (e axis))
      = stratum_end (op_at start e) (op_at stop e) num endpoint centers (e axis)).
    { unfold stratum_end, stratum_begin. rewrite qnat_S. destruct centers; ring. }
    assert (LT : forall i, (stratum_begin (op_at start e) (op_at stop e) num endpoint centers i
                  < stratum_end (op_at start e) (op_at stop e) num endpoint centers i)%Qc).
    { intros i. unfold stratum_end. set (b := stratum_begin _ _ _ _ _ _). set (p := piece _ _ _ _ _) in *.
      unfold Qclt in *. rewrite this_add. change (this 0%Qc) with (0 # 1)%Q in P. lra. }
    destruct B as [B _], B' as [B' _]. specialize (B (LT _)). specialize (B' (LT _)). rewrite EB in B'.
    eapply Qclt_le_trans; [apply B|apply B'].
  Qed.

  Theorem stratified_decreasing e : inside e (sshape r) -> S (e axis) < num -> (op_at stop e < op_at start e)%Qc ->
    (at_ r (set_env e axis (S (e axis))) < at_ r e)%Qc.
  Proof.
    intros He Hlt L. assert (He' := inside_next e He Hlt).
    assert (B := stratified_stratum e He). assert (B' := stratified_stratum _ He').
    rewrite !away in B' by (simpl; auto). replace (set_env e axis (S (e axis)) axis) with (S (e axis)) in B' by (unfold set_env; now rewrite String.eqb_refl).
    assert (P := piece_sign _ _ L). assert (0 < Z.of_nat num)%Z by lia. specialize (P H).
    assert (EP : (piece (op_at start e) (op_at stop e) num endpoint centers = - piece (op_at stop e) (op_at start e) num endpoint centers)%Qc).
    { unfold piece, Qcdiv. ring. }
    assert (EB : stratum_begin (op_at start e) (op_at stop e) num endpoint centers (S (e axis))
      = stratum_end (op_at start e) (op_at stop e) num endpoint centers (e axis)).
    { unfold stratum_end, stratum_begin. rewrite qnat_S. destruct centers; ring. }
    assert (LT : forall i, (stratum_end (op_at start e) (op_at stop e) num endpoint centers i
                  < stratum_begin (op_at start e) (op_at stop e) num endpoint centers i)%Qc).
    { intros i. unfold stratum_end. set (b := stratum_begin _ _ _ _ _ _). rewrite EP. set (p := piece _ _ _ _ _) in *.
      unfold Qclt in *. rewrite this_add, this_opp. change (this 0%Qc) with (0 # 1)%Q in P. lra. }
    destruct B as (_ & B & _), B' as (_ & B' & _). specialize (B (LT _)). specialize (B' (LT _)). rewrite EB in B'.
    eapply Qcle_lt_trans; [apply B'|apply B].
  Qed.
End Order.

(** without centers the first sample can be before the start *)
Theorem stratified_outside (s t : Qc) (axis : string) num endpoint seed : (s < t)%Qc -> 2 <= num ->
  exists r, na_stratified (fun _ _ _ => 0%Qc) (OpNum s) (OpNum t) axis (Z.of_nat num) endpoint false seed = Ok r /\
    exists e, inside e (sshape r) /\ (at_ r e < s)%Qc.
Proof.
  intros L Hn. assert (SH : broadcast_shapes [op_shape (OpNum s); op_shape (OpNum t)] = Ok []) by reflexivity.
  assert (HP : pieces num endpoint false <> 0%Z) by (unfold pieces; destruct endpoint; lia).
  destruct (stratified_ok (fun _ _ _ => 0%Qc) (OpNum s) (OpNum t) [] axis I I SH (fun x => x) num endpoint false seed HP)
    as (r & sd & E & W & S & _ & _ & G).
  exists r. split; auto. exists (fun _ => 0).
  assert (He : inside (fun _ : string => 0) (sshape r)).
  { intros ax n Hi. apply S in Hi. destruct Hi as [Hi|[]]. injection Hi as <- <-. lia. }
  split; auto. rewrite (G _ He). cbn [op_at].
  assert (P := piece_sign (fun _ _ _ => 0%Qc) (OpNum s) (OpNum t) [] axis I I SH (fun x => x) num endpoint false seed r E s t L).
  assert (0 < Z.of_nat num)%Z by lia. specialize (P H). set (p := piece _ _ _ _ _) in *.
  unfold Qclt in *. rewrite this_add, this_mul. change (this 0%Qc) with (0 # 1)%Q in P.
  change (this (qnat 0 + offset false + (0 - half))%Qc) with (-1 # 2)%Q. nra.
Qed.

Theorem uniform_between u (low high : operand Qc) (shape_random : shape) seed (sb sd : shape) r :
  op_wf low -> op_wf high -> NoDup (dkeys shape_random) -> unit_interval u ->
  broadcast_shapes (op_shapes [low; high]) = Ok sb -> broadcast_shapes [sb; shape_random] = Ok sd ->
  na_uniform u low high shape_random seed = Ok r ->
  sshape r = sd /\ forall e, inside e sd -> between (op_at low e) (op_at high e) (at_ r e).
Proof.
  intros Wl Wh N U Eb Ed E. destruct (uniform_ok u low high shape_random seed sb sd Wl Wh N Eb Ed) as (r' & E' & W & S & G).
  assert (r' = r) by congruence. subst r'. split; auto. intros e He. rewrite G.
  destruct (U seed (dvals sd) (map e (dkeys sd))) as [U1 U2]. set (x := u _ _ _) in *.
  replace (op_at low e + (op_at high e - op_at low e) * x)%Qc with (op_at low e + x * (op_at high e - op_at low e))%Qc by ring.
  assert (B := point_between (op_at low e) (op_at high e - op_at low e)%Qc x U1 U2).
  replace (op_at low e + (op_at high e - op_at low e))%Qc with (op_at high e) in B by ring. exact B.
Qed.
