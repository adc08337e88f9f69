(** Facts about percentiles of uncertain scalars. *)
From Coq Require Import String List Arith ZArith Bool Lia.
From Verif Require Import Base BaseFacts Numpy NumpyFacts Shapes Scalar Elementwise Reorder Along Quantile Vector Uncertain UncertainChoice UncertainQuantile
  Spec SpecNumeric SpecQuantile SpecVectorReduce SpecUncertain SpecUncertainChoice SpecUncertainAlong SpecUncertainEqual SpecUncertainJoin SpecUncertainQuantile
  ShapesFacts AlignFacts ElementwiseFacts ReduceFacts SortingFacts RankdataFacts PdfFacts RegridFacts QuantileFacts VectorReduceFacts
  UncertainFacts UncertainIndexFacts UncertainChoiceFacts UncertainAlongFacts UncertainEqualFacts UncertainJoinFacts UncertainFourierFacts.
From Verif Require UncertainTakeFacts UncertainSortFacts.
Import ListNotations.
Open Scope nat_scope.
Open Scope list_scope.

(** a part that is broadcast along the axes [S] *)
Lemma broadcast_exact {A} (S : list string) (o : operand A) (T sh : shape) : op_wf o -> NoDup (dkeys T) -> NoDup (dkeys sh) ->
  fits_in (op_shape o) T -> incl sh T -> incl S (dkeys sh) ->
  exists shc a, broadcast_shapes [sshape (normalize o); base_of sh S] = Ok shc /\ na_broadcast_to (normalize o) shc false = Ok a /\
    wf a /\ (forall e, bat a e = op_at o e) /\
    forall ax n, In (ax, n) (sshape a) <-> (In ax S /\ In (ax, n) sh) \/ (~ In ax S /\ In (ax, n) (op_shape o)).
Proof.
  intros Wo NT Ns Fo I IS. destruct (broadcast_spread S o T sh Wo NT Ns Fo I IS) as (shc & a & Ec & Ea & Wa & Fa & SA & KA & OA & Va).
  exists shc, a. split; [exact Ec|]. split; [exact Ea|]. split; [exact Wa|]. split; [exact Va|].
  destruct (base_spec sh S Ns) as (Nb & Hb). assert (No := op_shape_nodup o Wo).
  assert (Nl : Forall (fun s => NoDup (dkeys s)) [op_shape o; base_of sh S]) by auto.
  assert (Ec' := Ec). rewrite ElementwiseFacts.normalize_shape in Ec'. destruct (broadcast_joint _ _ Nl Ec') as (Nc & Fi & At).
  assert (Sa : sshape a = shc).
  { assert (Fo' : fits_in (op_shape o) shc) by (apply Fi; now left).
    destruct (broadcast_normalized o shc Wo Nc Fo') as (a' & Ea' & _ & Sa' & _). assert (a' = a) as -> by congruence. exact Sa'. }
  assert (U : forall ax n m, In (ax, n) (sshape a) -> In (ax, m) (sshape a) -> n = m).
  { intros ax n m H1 H2. apply (dget_NoDup _ _ _ (wf_nodup a Wa)) in H1, H2. congruence. }
  intros ax n. split.
  - intros Hn. destruct (in_dec string_dec ax S) as [HS|HS].
    + left. split; auto. assert (K := IS ax HS). apply key_size in K as [m Hm]. rewrite (U ax n m Hn); auto.
    + right. split; auto. rewrite Sa in Hn. destruct (At ax n Hn) as (s & [<- |[<- |[]]] & Hs); auto. apply Hb in Hs as [Hs _]. contradiction.
  - intros [[HS Hn]|[HS Hn]]; [apply SA; auto|].
    assert (K : In ax (dkeys (sshape a))) by (apply KA; now apply (in_map fst) in Hn). apply key_size in K as [m Hm].
    assert (Hm' := Hm). rewrite Sa in Hm'. destruct (At ax m Hm') as (s & [<- |[<- |[]]] & Hs); [|apply Hb in Hs as [Hs _]; contradiction].
    apply (dget_NoDup _ _ _ No) in Hs, Hn. assert (m = n) as -> by congruence. exact Hm.
Qed.

Section Percentile.
Context {A Q B : Type} (valid : Q -> bool) (perc : Q -> list A -> B) (symm : forall x, symmetric (perc x)).

(** the percentiles of one part *)
Lemma part_percentile (o : operand A) (p : operand Q) (T sh : shape) S keepdims : op_wf o -> op_wf p -> NoDup (dkeys T) -> NoDup (dkeys sh) ->
  fits_in (op_shape o) T -> incl sh T -> incl S (dkeys sh) -> (forall ax n, In (ax, n) T -> n <> 0) ->
  exists shc a, broadcast_shapes [sshape (normalize o); base_of sh S] = Ok shc /\ na_broadcast_to (normalize o) shc false = Ok a /\
   let ok := NoDup S /\ (forall ax, In ax (dkeys (op_shape p)) -> ~ In ax (dkeys (op_shape o)) /\ ~ In ax S) /\
             length (op_shape p) <= 2 /\ forall e, inside e (op_shape p) -> valid (op_at p e) = true in
   (ok -> exists r, na_percentile valid perc (OpArr a) p (Some S) None keepdims = Ok r /\ wf r /\
     (forall ax n, In (ax, n) (sshape r) <-> In (ax, n) (op_shape p) \/ (In (ax, n) (op_shape o) /\ ~ In ax S) \/ (keepdims = true /\ In ax S /\ n = 1)) /\
     forall e, inside e (sshape r) -> at_ r e = perc (op_at p e) (map (op_at o) (fibre sh S e))) /\
   (~ ok -> na_percentile valid perc (OpArr a) p (Some S) None keepdims = Err ValueError).
Proof.
  intros Wo Wp NT Ns Fo I IS NZ. destruct (broadcast_exact S o T sh Wo NT Ns Fo I IS) as (shc & a & Ec & Ea & Wa & Va & Sa).
  exists shc, a. split; [exact Ec|]. split; [exact Ea|].
  assert (NZa : forall ax n, In (ax, n) (op_shape (OpArr a)) -> n <> 0).
  { intros ax n Hn. cbn [op_shape] in Hn. apply Sa in Hn as [[_ Hn]|[_ Hn]]; [exact (NZ ax n (I _ Hn))|].
    destruct (Fo ax n Hn) as (m & Hm & [-> | ->]); [lia|]. now apply (NZ ax). }
  assert (IA : incl S (dkeys (sshape a))).
  { intros ax HS. assert (K := IS ax HS). apply key_size in K as [n Hn]. assert (H : In (ax, n) (sshape a)) by (apply Sa; auto). now apply (in_map fst) in H. }
  assert (KA : forall ax, In ax (dkeys (sshape a)) <-> In ax S \/ In ax (dkeys (op_shape o))).
  { intros ax. split.
    - intros K. apply key_size in K as [n Hn]. apply Sa in Hn as [[Hn _]|[_ Hn]]; auto. right. now apply (in_map fst) in Hn.
    - intros [K|K]; auto. destruct (in_dec string_dec ax S) as [HS|HS]; auto. apply key_size in K as [n Hn].
      assert (H : In (ax, n) (sshape a)) by (apply Sa; auto). now apply (in_map fst) in H. }
  destruct (percentile_spec valid perc (OpArr a) p (Some S) keepdims symm Wa Wp NZa) as [P1 P2]. cbn [op_shape] in *. cbv zeta. split.
  - intros (O1 & O2 & O3 & O4). destruct P1 as (r & Er & Wr & Sr & Vr).
    { split; [exact O1|]. split; [exact IA|]. split; [|auto]. intros ax Hq K. apply KA in K. destruct (O2 ax Hq). tauto. }
    exists r. split; [exact Er|]. split; [exact Wr|]. split.
    + intros ax n. rewrite Sr, in_app_iff. destruct keepdims.
      * rewrite squeezed_In. destruct (smem ax S) eqn:E.
        -- apply smem_In in E. split; [intros [K|[K1 ->]]; auto|]. intros [K|[[_ K]|(_ & _ & ->)]]; auto; contradiction.
        -- apply smem_false in E. rewrite Sa. split; [intros [K|[[K _]|[_ K]]]; auto; contradiction|]. intros [K|[[K _]|(_ & K & _)]]; auto; contradiction.
      * rewrite without_In, Sa. split; [intros [K|[[[K _]|[_ K]] X]]; auto; contradiction|]. intros [K|[[K X]|(K & _)]]; auto; discriminate.
    + intros e He. rewrite Vr by auto. f_equal. rewrite (map_ext _ _ Va). f_equal. apply fibre_ext. intros ax HS.
      assert (K := IS ax HS). apply key_size in K as [n Hn]. rewrite (size_of_In sh ax n Ns Hn). apply size_of_In; [now apply wf_nodup|]. apply Sa. auto.
  - intros NO. apply P2. intros (O1 & _ & O3 & O4 & O5). apply NO. split; [exact O1|]. split; [|auto].
    intros ax Hq. assert (K := O3 ax Hq). rewrite KA in K. tauto.
Qed.

Lemma as_unc_shape {X} (x : uop X) sh : uop_wf x -> sample_free x -> has_shape x sh ->
  exists u, as_unc x = Ok u /\ u_wf u /\ u_nominal u = nominal_of x /\ u_distribution u = distribution_of x /\ u_shape u = Ok sh /\
    (forall w, full_shape w (Uncertain u, sh) = full_shape w (x, sh)) /\ forall w e, u_at (Uncertain u) w e = u_at x w e.
Proof.
  intros Wx Fx Hs. destruct (as_unc_ok x Wx Fx) as (u & Eu & Wu & Nu & Du). exists u. do 4 (split; [assumption|]).
  destruct x as [u'|o]; cbn [as_unc] in Eu.
  - injection Eu as <-. split; [exact Hs|]. auto.
  - cbn [nominal_of distribution_of] in Nu, Du. destruct u as [a b]. cbn [u_nominal u_distribution] in Nu, Du. subst a b. cbn [has_shape] in Hs. subst sh.
    split; [now apply UncertainTakeFacts.certain_whole|]. split; [reflexivity|]. intros [k|] e; [|reflexivity]. cbn [u_at u_distribution].
    apply op_at_unseen; auto.
Qed.

Theorem u_percentile_spec (x : uop A) (q : uop Q) sh axis keepdims :
  uop_wf x -> sample_free x -> has_shape x sh -> uop_wf q -> sample_free q ->
  (forall w ax n, In (ax, n) (full_shape w (x, sh)) -> n <> 0) ->
  let l := match axis with Some l => l | None => dkeys sh end in
  let ok := NoDup l /\ incl l (dkeys sh) /\ forall w, percentages valid x q l w in
  (ok -> exists n d, let r := mkU (OpArr n) (OpArr d) in u_percentile valid perc x q axis keepdims = Ok r /\ u_wf r /\
     forall w,
       (forall ax k, In (ax, k) (op_shape (u_part r w)) <->
          In (ax, k) (op_shape (part_of q w)) \/ (In (ax, k) (op_shape (part_of x w)) /\ ~ In ax l) \/ (keepdims = true /\ In ax l /\ k = 1)) /\
       forall e, u_inside r w e -> u_at (Uncertain r) w e = perc (u_at q w e) (map (u_at x w) (fibre sh l e))) /\
  (~ ok -> u_percentile valid perc x q axis keepdims = Err ValueError).
Proof.
  intros Wx Fx Hs Wq Fq NZ l ok. destruct (as_unc_shape x sh Wx Fx Hs) as (u & Eu & Wu & Nu & Du & H & Fu & Vu).
  destruct (broadcast_parts u sh Wu H) as (Ns & Xs & _). pose proof Wu as (Wn & Wd & Wux).
  assert (Wqn : op_wf (nominal_of q)) by (destruct q as [v|o]; [apply Wq|exact Wq]).
  assert (Wqd : op_wf (distribution_of q)) by (destruct q as [v|o]; [apply Wq|exact Wq]).
  assert (Xq : ~ In axis_distribution (dkeys (op_shape (nominal_of q)))) by (destruct q as [v|o]; [apply Wq|exact Fq]).
  set (K := fun S => shn <- broadcast_shapes [sshape (normalize (u_nominal u)); base_of sh S] ;;
    nominal <- na_broadcast_to (normalize (u_nominal u)) shn false ;;
    n <- na_percentile valid perc (OpArr nominal) (nominal_of q) (Some S) None keepdims ;;
    shd <- broadcast_shapes [sshape (normalize (u_distribution u)); base_of sh S] ;;
    distribution <- na_broadcast_to (normalize (u_distribution u)) shd false ;;
    d <- na_percentile valid perc (OpArr distribution) (distribution_of q) (Some S) None keepdims ;;
    mk_unc (OpArr n) (OpArr d)).
  assert (UE : u_percentile valid perc x q axis keepdims =
    if match axis with Some _ => negb (forallb (fun ax => smem ax (dkeys sh)) l) | None => false end then Err ValueError else K l).
  { unfold u_percentile. rewrite Eu. cbn [bind]. rewrite H. cbn [bind]. reflexivity. }
  destruct (incl_sdec l (dkeys sh)) as [IS|IS].
  2:{ split; [intros (_ & I & _); contradiction|]. intros _. rewrite UE. destruct axis as [l0|]; [|destruct IS; apply incl_refl]. cbn in l. subst l.
      destruct (forallb (fun ax => smem ax (dkeys sh)) l0) eqn:Fb; [|reflexivity]. destruct IS. intros ax Hax. rewrite forallb_forall in Fb. now apply smem_In, Fb. }
  assert (UE' : u_percentile valid perc x q axis keepdims = K l).
  { rewrite UE. destruct axis as [l0|]; [|reflexivity].
    replace (negb (forallb (fun ax => smem ax (dkeys sh)) l)) with false; auto.
    symmetry. apply negb_false_iff, forallb_forall. intros ax Hax. now apply smem_In, IS. }
  rewrite UE'. clear UE UE'. unfold K. clear K.
  destruct (world_shape_nodup u sh None Wu H) as (Nn & _). destruct (world_shape_nodup u sh (Some 0) Wu H) as (Nd & _).
  destruct (part_percentile (u_nominal u) (nominal_of q) _ sh l keepdims Wn Wqn Nn Ns (parts_fit u sh None Wu H) (incl_refl _) IS) as (shn & an & E1 & E2 & P1 & P2).
  { intros ax n. rewrite Fu. apply NZ. }
  destruct (part_percentile (u_distribution u) (distribution_of q) _ sh l keepdims Wd Wqd Nd Ns (parts_fit u sh (Some 0) Wu H) ltac:(intros y Hy; apply in_app_iff; now left) IS) as (shd & ad & E3 & E4 & P3 & P4).
  { intros ax n. rewrite Fu. apply NZ. }
  rewrite Nu in P1, P2. rewrite Du in P3, P4.
  match goal with |- context [broadcast_shapes ?y] => replace (broadcast_shapes y) with (Ok shn) by (symmetry; exact E1) end. cbn [bind]. rewrite E2. cbn [bind].
  assert (PW : forall w, percentages valid x q l w <-> percentages valid x q l (match w with Some _ => Some 0 | None => None end)).
  { intros [k|]; reflexivity. }
  split.
  - intros (ND & _ & PC). destruct P1 as (n & En & Wrn & Srn & Vrn). { split; [exact ND|exact (PC None)]. }
    destruct P3 as (d & Ed & Wrd & Srd & Vrd). { split; [exact ND|exact (PC (Some 0))]. }
    exists n, d. cbv zeta.
    assert (Xn : ~ In axis_distribution (dkeys (sshape n))).
    { intros K. apply key_size in K as [m K]. apply Srn in K as [K|[[K _]|(_ & K & _)]].
      - apply Xq. now apply (in_map fst) in K.
      - apply Wux. rewrite Nu. now apply (in_map fst) in K.
      - now apply Xs, IS. }
    split.
    { rewrite En. cbn [bind]. match goal with |- context [broadcast_shapes ?y] => replace (broadcast_shapes y) with (Ok shd) by (symmetry; exact E3) end. cbn [bind]. rewrite E4. cbn [bind].
      rewrite Ed. cbn [bind]. now apply mk_unc_intro. }
    split. { split; [exact Wrn|]. split; [exact Wrd|exact Xn]. }
    intros w. split.
    { intros ax k. destruct w as [k'|]; cbn [u_part op_shape u_nominal u_distribution part_of]; auto. }
    intros e He. destruct w as [k|].
    + cbn [u_at u_distribution op_at]. rewrite bat_inside; [|exact Wrd|exact He]. rewrite Vrd by exact He.
      assert (Nx : ~ In axis_distribution l) by (intros K; now apply Xs, IS).
      f_equal.
      * symmetry. rewrite u_at_part_of; auto.
      * rewrite <- (UncertainSortFacts.fibre_world sh (op_at (distribution_of x)) axis_distribution k l (ReduceFacts.op_at_respects _) Nx e (set_env e axis_distribution k) ltac:(reflexivity)).
        apply map_ext. intros e1. rewrite <- Vu. cbn [u_at]. now rewrite Du.
    + cbn [u_at u_nominal op_at]. rewrite bat_inside; [|exact Wrn|exact He]. rewrite Vrn by exact He. f_equal; [now destruct q|]. apply map_ext. intros e1.
      now destruct x.
  - intros NO. destruct (na_percentile valid perc (OpArr an) (nominal_of q) (Some l) None keepdims) as [n|er] eqn:En; cbn [bind].
    + match goal with |- context [broadcast_shapes ?y] => replace (broadcast_shapes y) with (Ok shd) by (symmetry; exact E3) end. cbn [bind]. rewrite E4. cbn [bind].
      rewrite P4; [reflexivity|]. intros O2.
      assert (C : ~ ~ (NoDup l /\ percentages valid x q l None)). { intros C. cbv zeta in P2. specialize (P2 C). discriminate. }
      apply C. intros O1. apply NO. split; [apply O1|]. split; [exact IS|]. intros [k|]; [apply O2|apply O1].
    + assert (C : ~ (NoDup l /\ percentages valid x q l None)). { intros C. destruct (P1 C) as (n & En' & _). discriminate. }
      specialize (P2 C). congruence.
Qed.

(** uncertain percentages of an uncertain array are always refused *)
Theorem u_percentile_both (x : uop A) (q : uop Q) sh axis keepdims :
  uop_wf x -> sample_free x -> has_shape x sh -> uop_wf q -> sample_free q ->
  (forall w ax n, In (ax, n) (full_shape w (x, sh)) -> n <> 0) ->
  In axis_distribution (dkeys (op_shape (distribution_of x))) -> In axis_distribution (dkeys (op_shape (distribution_of q))) ->
  u_percentile valid perc x q axis keepdims = Err ValueError.
Proof.
  intros Wx Fx Hs Wq Fq NZ Dx Dq. apply (u_percentile_spec x q sh axis keepdims Wx Fx Hs Wq Fq NZ). intros (_ & _ & PC).
  destruct (PC (Some 0)) as (PC0 & _). destruct (PC0 axis_distribution Dq) as [K _]. now apply K.
Qed.
End Percentile.
