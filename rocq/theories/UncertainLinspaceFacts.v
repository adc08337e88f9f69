(** Facts about evenly spaced uncertain scalars. *)
From Coq Require Import String List Arith ZArith QArith Qcanon Bool Lia.
From Verif Require Import Base BaseFacts Numpy NumpyFacts Shapes Scalar Elementwise Interp Uncertain UncertainChoice UncertainLinspace
  Spec SpecNumeric SpecUncertain SpecUncertainChoice SpecUncertainLinspace
  ShapesFacts AlignFacts ElementwiseFacts SortingFacts RankdataFacts DerivedFacts LinspaceFacts InterpFacts UncertainFacts UncertainChoiceFacts.
Import ListNotations.
Open Scope nat_scope.
Open Scope list_scope.

Lemma sequence_refused start stop axis num endpoint : op_wf start -> op_wf stop ->
  (broadcast_shapes [op_shape start; op_shape stop] = Err ValueError \/
   exists sh, broadcast_shapes [op_shape start; op_shape stop] = Ok sh /\ ((num < 0)%Z \/ In axis (dkeys sh))) ->
  sequence_linspace start stop axis num endpoint = Err ValueError.
Proof.
  intros Ws Wt [E|(sh & E & H)].
  - unfold sequence_linspace, shape_broadcasted. cbn [op_shapes flat_map app]. rewrite !normalize_shape. now rewrite E.
  - destruct (Z_lt_ge_dec num 0) as [L|G].
    + exact (linspace_negative start stop axis num endpoint sh Ws Wt E L).
    + destruct H as [L|K]; [lia|]. rewrite <- (Z2Nat.id num) by lia. exact (linspace_repeated start stop axis (Z.to_nat num) endpoint sh Ws Wt E K).
Qed.

Lemma parts_wf {A} (x : uop A) : uop_wf x -> op_wf (nominal_of x) /\ op_wf (distribution_of x).
Proof. destruct x as [u|o]; cbn; [intros (H1 & H2 & _); auto|auto]. Qed.

Lemma distribution_at {A} (x : uop A) k e : uop_wf x -> sample_free x ->
  op_at (distribution_of x) (set_env e axis_distribution k) = u_at x (Some k) e.
Proof. destruct x as [u|o]; cbn; [reflexivity|]. intros W F. now apply op_at_unseen. Qed.

Lemma nominal_at {A} (x : uop A) e : op_at (nominal_of x) e = u_at x None e.
Proof. destruct x; reflexivity. Qed.

Lemma nominal_free {A} (x : uop A) : uop_wf x -> sample_free x -> ~ In axis_distribution (dkeys (op_shape (nominal_of x))).
Proof. destruct x as [u|o]; cbn; [intros (_ & _ & H) _; auto|auto]. Qed.

Theorem u_linspace_spec (start stop : uop Qc) axis (num : nat) endpoint shn shd :
  uop_wf start -> uop_wf stop -> sample_free start -> sample_free stop -> spaceable start stop axis (Z.of_nat num) shn shd ->
  exists u, u_linspace start stop axis (Z.of_nat num) endpoint = Ok u /\ u_wf u /\
    same_shape (op_shape (u_nominal u)) (shn ++ [(axis, num)]) /\ same_shape (op_shape (u_distribution u)) (shd ++ [(axis, num)]) /\
    forall w e, u_inside u w e ->
      (pieces num endpoint false = 0%Z -> u_at (Uncertain u) w e = u_at start w e) /\
      (pieces num endpoint false <> 0%Z ->
       u_at (Uncertain u) w e = (u_at start w e + qnat (e axis) * piece (u_at start w e) (u_at stop w e) num endpoint false)%Qc).
Proof.
  intros W1 W2 F1 F2 (En & Ed & _ & An & Ad & Ax). unfold u_linspace.
  destruct (as_unc_ok start W1 F1) as (s & -> & Ws & Ns & Ds). destruct (as_unc_ok stop W2 F2) as (t & -> & Wt & Nt & Dt).
  cbn [bind]. rewrite Ns, Nt, Ds, Dt. destruct (parts_wf _ W1) as [P1 Q1]. destruct (parts_wf _ W2) as [P2 Q2].
  destruct (linspace_edges (nominal_of start) (nominal_of stop) shn axis P1 P2 En An num endpoint) as (n & Rn & Wn & Sn & Vn).
  destruct (linspace_edges (distribution_of start) (distribution_of stop) shd axis Q1 Q2 Ed Ad num endpoint) as (d & Rd & Wd & Sd & Vd).
  unfold na_linspace in Rn, Rd. rewrite Rn. cbn [bind]. rewrite Rd. cbn [bind].
  assert (X : ~ In axis_distribution (dkeys (sshape n))).
  { intros H. apply RankdataFacts.key_size in H as [m H]. apply Sn in H. apply in_app_iff in H as [H|[H|[]]]; [|injection H as -> _; congruence].
    assert (F : Forall (fun s : shape => NoDup (dkeys s)) [op_shape (nominal_of start); op_shape (nominal_of stop)]) by (repeat constructor; now apply op_shape_nodup).
    assert (B := InterpFacts.broadcast_attained _ _ F En). destruct B as [_ [_ B]]. destruct (B _ _ H) as (q & Hq & K). apply (in_map fst) in K.
    destruct Hq as [<-|[<-|[]]]; [exact (nominal_free _ W1 F1 K)|exact (nominal_free _ W2 F2 K)]. }
  rewrite mk_unc_intro by exact X. exists (mkU (OpArr n) (OpArr d)). split; [reflexivity|]. split; [split; [exact Wn|split; [exact Wd|exact X]]|].
  split; [exact Sn|]. split; [exact Sd|]. intros [k|] e He; cbn [u_inside u_nominal u_distribution op_shape] in He.
  - destruct (Vd _ He) as [V1 V2]. rewrite (distribution_at start k e W1 F1) in V1, V2. rewrite (distribution_at stop k e W2 F2) in V2.
    replace (set_env e axis_distribution k axis) with (e axis) in V2 by (unfold set_env; destruct (String.eqb_spec axis axis_distribution); congruence).
    change (u_at (Uncertain (mkU (OpArr n) (OpArr d))) (Some k) e) with (bat d (set_env e axis_distribution k)). rewrite bat_inside by auto. split; [exact V1|exact V2].
  - destruct (Vn _ He) as [V1 V2]. rewrite (nominal_at start) in V1, V2. rewrite (nominal_at stop) in V2. change (u_at (Uncertain (mkU (OpArr n) (OpArr d))) None e) with (bat n e). rewrite bat_inside by auto. auto.
Qed.

Theorem u_linspace_refused (start stop : uop Qc) axis num endpoint :
  uop_wf start -> uop_wf stop -> sample_free start -> sample_free stop -> (forall shn shd, ~ spaceable start stop axis num shn shd) ->
  u_linspace start stop axis num endpoint = Err ValueError.
Proof.
  intros W1 W2 F1 F2 H. unfold u_linspace.
  destruct (as_unc_ok start W1 F1) as (s & -> & Ws & Ns & Ds). destruct (as_unc_ok stop W2 F2) as (t & -> & Wt & Nt & Dt).
  cbn [bind]. rewrite Ns, Nt, Ds, Dt. destruct (parts_wf _ W1) as [P1 Q1]. destruct (parts_wf _ W2) as [P2 Q2].
  assert (B : forall x y : operand Qc, op_wf x -> op_wf y -> (exists r, broadcast_shapes [op_shape x; op_shape y] = Ok r) \/ broadcast_shapes [op_shape x; op_shape y] = Err ValueError).
  { intros x y Wx Wy. apply broadcast_shapes_total. repeat constructor; now apply op_shape_nodup. }
  destruct (B _ _ P1 P2) as [[shn En]|En]; [|now rewrite sequence_refused by auto].
  destruct (Z_lt_ge_dec num 0) as [L|G]; [rewrite sequence_refused by eauto; reflexivity|].
  destruct (in_dec string_dec axis (dkeys shn)) as [In1|In1]; [rewrite sequence_refused by eauto; reflexivity|].
  assert (G' : (0 <= num)%Z) by lia. replace num with (Z.of_nat (Z.to_nat num)) by (now apply Z2Nat.id). set (k := Z.to_nat num).
  destruct (linspace_edges (nominal_of start) (nominal_of stop) shn axis P1 P2 En In1 k endpoint) as (n & Rn & Wn & Sn & _).
  unfold na_linspace in Rn. rewrite Rn. cbn [bind].
  destruct (B _ _ Q1 Q2) as [[shd Ed]|Ed]; [|now rewrite sequence_refused by auto].
  destruct (in_dec string_dec axis (dkeys shd)) as [In2|In2]; [rewrite sequence_refused by eauto; reflexivity|].
  destruct (linspace_edges (distribution_of start) (distribution_of stop) shd axis Q1 Q2 Ed In2 k endpoint) as (d & Rd & _).
  unfold na_linspace in Rd. rewrite Rd. cbn [bind].
  destruct (string_dec axis axis_distribution) as [Ex|Ex].
  - unfold mk_unc. replace (dmem (sshape n) axis_distribution) with true; [reflexivity|]. symmetry. unfold dmem.
    destruct (dget (sshape n) axis_distribution) eqn:D; [reflexivity|]. apply dget_None in D. exfalso. apply D. rewrite <- Ex.
    apply (in_map fst _ (axis, k)). apply Sn. apply in_or_app. right. now left.
  - exfalso. apply (H shn shd). do 5 (split; [assumption|]). exact Ex.
Qed.

Lemma as_unc_refused {A} (x : uop A) : ~ sample_free x -> as_unc x = Err ValueError.
Proof.
  destruct x as [u|o]; cbn [sample_free as_unc]; intros H; [destruct (H I)|]. rewrite mk_unc_def.
  destruct (dget (op_shape o) axis_distribution) eqn:D; [reflexivity|]. apply dget_None in D. contradiction.
Qed.

Theorem u_linspace_samples (start stop : uop Qc) axis num endpoint : uop_wf start -> ~ sample_free start \/ ~ sample_free stop ->
  u_linspace start stop axis num endpoint = Err ValueError.
Proof.
  intros W H. unfold u_linspace. destruct (as_unc start) as [s|x] eqn:E; cbn [bind].
  - destruct H as [H|H]; [rewrite (as_unc_refused _ H) in E; discriminate|]. now rewrite (as_unc_refused _ H).
  - destruct start as [u|o]; [discriminate|]. cbn [as_unc] in E. rewrite mk_unc_def in E. destruct (dget (op_shape o) axis_distribution); congruence.
Qed.
