(** Facts about the elements of uncertain scalars that are not zero. *)
From Coq Require Import String List Arith ZArith Bool Lia Sorted.
From Verif Require Import Base BaseFacts Numpy NumpyFacts Shapes Scalar Elementwise Reduce Nonzero Uncertain UncertainNonzero
  Spec SpecNonzero SpecUncertain SpecUncertainAlong SpecUncertainSort SpecUncertainNonzero
  ShapesFacts AlignFacts ElementwiseFacts ReduceFacts SortingFacts RankdataFacts LinspaceFacts NonzeroFacts
  UncertainFacts UncertainIndexFacts UncertainAlongFacts.
Import ListNotations.
Open Scope nat_scope.
Open Scope list_scope.

(** combining the samples *)
Lemma over_samples {A B} (f : list A -> B) (d : sarr A) num : wf d -> In (axis_distribution, num) (sshape d) ->
  exists m, na_reduce true f d (Some [axis_distribution]) false None None = Ok m /\ wf m /\
    (forall ax n, In (ax, n) (sshape m) <-> In (ax, n) (sshape d) /\ ax <> axis_distribution) /\
    forall e, at_ m e = f (map (fun k => at_ d (set_env e axis_distribution k)) (seq 0 num)).
Proof.
  intros Wdb HD. assert (Nd := wf_nodup d Wdb).
  assert (KD : In axis_distribution (dkeys (sshape d))) by (now apply (in_map fst) in HD).
  assert (R := reduce_spec true f d (Some [axis_distribution]) false None Wdb ltac:(discriminate)). cbv zeta in R.
  replace (broadcast_shapes [sshape d]) with (Ok (sshape d)) in R.
  2:{ symmetry. apply (DerivedFacts.bs_covered (sshape d) []); auto. intros s []. }
  destruct R as [R _]. destruct R as (m & Em & Wm & Am & Sm & Vm).
  { split; [repeat constructor; auto|]. split; [intros x [<- |[]]; auto|]. split; [discriminate|auto]. }
  exists m. split; [exact Em|]. split; [exact Wm|]. split.
  - intros ax n. rewrite Sm, Am, filter_In, negb_true_iff. cbn [smem existsb]. rewrite orb_false_r. split.
    + intros [[H1 H2] ->]. rewrite H2. apply key_size in H1 as [n Hn]. rewrite (size_of_In _ ax n Nd Hn). split; auto. now apply String.eqb_neq.
    + intros [Hn Hx]. apply String.eqb_neq in Hx. rewrite Hx.
      split; [split; auto; now apply (in_map fst) in Hn|]. symmetry. now apply size_of_In.
  - intros e. rewrite Vm. f_equal. rewrite filter_all by auto.
    assert (FK : filter (fun ax => smem ax [axis_distribution]) (dkeys (sshape d)) = [axis_distribution]).
    { clear - Nd KD. induction (dkeys (sshape d)) as [|x l IH]; [destruct KD|]. inversion Nd; subst. cbn [filter smem existsb]. rewrite orb_false_r.
      destruct (String.eqb_spec x axis_distribution) as [->|NE].
      - f_equal. apply filter_none. intros y Hy. cbn [smem existsb]. rewrite orb_false_r. apply String.eqb_neq. intros ->. contradiction.
      - destruct KD; [congruence|]. now apply IH. }
    rewrite FK. cbn [fibre]. rewrite (size_of_In _ _ _ Nd HD). rewrite flat_map_concat_map.
    generalize (seq 0 num). intros q. induction q as [|k q IH]; auto. cbn [map concat app]. f_equal. exact IH.
Qed.

(** the product of the two parts *)
Lemma product_of_worlds {A} (truth : A -> bool) mul prod (u : unc A) sh num : no_zero_divisors truth mul prod -> u_wf u -> u_shape u = Ok sh ->
  In (axis_distribution, num) (op_shape (u_distribution u)) ->
  exists r, u_nonzero truth mul prod u = na_nonzero truth r /\ wf r /\ same_shape (sshape r) sh /\
    forall e, truth (at_ r e) = true <-> never_zero truth u num e.
Proof.
  intros [T1 T2] W H D. pose proof W as (Wn & Wd & Wx). unfold u_nonzero, never_zero.
  destruct (u_shape_ok u sh W H) as (sd & _ & Nsd & Ns & P & Fn & Fd & At).
  destruct u as [no [d|x]]; [|destruct D]. cbn [u_distribution u_nominal op_shape] in *.
  destruct (over_samples prod d num Wd D) as (m & Em & Wm & Sm & Vm). rewrite Em. cbn [bind].
  assert (Wl : Forall op_wf [no; OpArr m]) by (apply Forall_cons; [exact Wn|apply Forall_cons; [exact Wm|apply Forall_nil]]).
  assert (AT : attained (op_shapes [no; OpArr m]) sh).
  { split.
    - intros s Hs. assert (Q : s = op_shape no /\ In s (op_shapes [no]) \/ s = sshape m).
      { destruct no as [a|y]; cbn in Hs; [destruct Hs as [<-|[<-|[]]]; [left; split; [reflexivity|now left]|now right]|destruct Hs as [<-|[]]; now right]. }
      destruct Q as [[-> _]| ->].
      + split; [now apply op_shape_nodup|]. intros ax n Hn. destruct (Fn ax n Hn) as (k & Hk & C).
        assert (Hs' : In (ax, k) sh). { apply P. split; auto. intros ->. apply Wx. now apply (in_map fst) in Hn. }
        split; [now apply (in_map fst) in Hs'|]. destruct C as [->| ->]; auto.
      + split; [now apply wf_nodup|]. intros ax n Hn. apply Sm in Hn as [Hn Hx]. destruct (Fd ax n Hn) as (k & Hk & C).
        assert (Hs' : In (ax, k) sh) by (apply P; auto). split; [now apply (in_map fst) in Hs'|]. destruct C as [->| ->]; auto.
    - intros ax n Hn. apply P in Hn as [Hn Hx]. destruct (At ax n Hn) as [K|K].
      + exists (op_shape no). split; auto. destruct no as [a|y]; [now left|destruct K].
      + exists (sshape m). split; [|apply Sm; auto]. destruct no; cbn; auto. }
  destruct (bs_attained _ _ Ns AT) as (sr & Er & Nr & SS).
  destruct (array_ufunc_ok mul [no; OpArr m] sr Wl Er) as (r & Eu & Wr & Sr & Vr). rewrite Eu. cbn [bind].
  exists r. split; [reflexivity|]. split; [exact Wr|]. split; [now rewrite Sr|].
  intros e. rewrite Vr. cbn [map]. rewrite T1.
  assert (VB : op_at (OpArr m) e = prod (map (fun k => u_at (Uncertain (mkU no (OpArr d))) (Some k) e) (seq 0 num))).
  { cbn [op_at]. unfold bat at 1. rewrite Vm. f_equal. apply map_ext_in. intros k Hk. apply in_seq in Hk. cbn [u_at u_distribution op_at]. unfold bat, at_.
    f_equal. apply map_ext_in. intros ax Hax. unfold set_env, bclamp. destruct (String.eqb_spec ax axis_distribution) as [->|Hx].
    - rewrite (dget_NoDup _ _ _ (wf_nodup d Wd) D). destruct num as [|[|n]]; auto. lia.
    - rewrite <- (wf_keys d Wd) in Hax. apply key_size in Hax as [n Hn]. rewrite (dget_NoDup _ _ _ (wf_nodup d Wd) Hn).
      assert (Hm : In (ax, n) (sshape m)) by (apply Sm; auto). now rewrite (dget_NoDup _ _ _ (wf_nodup m Wm) Hm). }
  rewrite VB, T2. split.
  - intros [H1 H2] [k|] Hw; [|exact H1]. cbn [world] in Hw. apply H2. apply in_map_iff. exists k. split; auto. apply in_seq. lia.
  - intros Hw. split; [exact (Hw None I)|]. intros x Hx. apply in_map_iff in Hx as (k & <- & Hk). apply in_seq in Hk. apply (Hw (Some k)). cbn [world]. lia.
Qed.

Theorem u_nonzero_spec {A} (truth : A -> bool) mul prod (u : unc A) sh num : no_zero_divisors truth mul prod -> u_wf u -> u_shape u = Ok sh ->
  In (axis_distribution, num) (op_shape (u_distribution u)) ->
  exists d l, u_nonzero truth mul prod u = Ok d /\ NoDup (dkeys d) /\ (forall ax, In ax (dkeys d) <-> In ax (dkeys sh)) /\
    never_zeros truth u num sh (dkeys d) l /\
    forall ax b, dget d ax = Some b -> wf b /\ sshape b = [(flat_name (dkeys d), length l)] /\
      forall e, inside e (sshape b) -> exists p, inside p sh /\ never_zero truth u num p /\
        nth_error l (e (flat_name (dkeys d))) = Some (map p (dkeys d)) /\ at_ b e = Z.of_nat (p ax).
Proof.
  intros T W H D. destruct (product_of_worlds truth mul prod u sh num T W H D) as (r & -> & Wr & Sr & Vr).
  assert (KR : forall ax, In ax (s_axes r) <-> In ax (dkeys sh)).
  { intros ax. rewrite <- (wf_keys r Wr). split; intros K; apply key_size in K as [n K]; apply Sr in K; now apply (in_map fst) in K. }
  assert (IR : forall e, inside e (sshape r) <-> inside e sh).
  { intros e. split; intros K ax n Hn; apply (K ax); now apply Sr. }
  destruct (found_exist truth r Wr) as (l & Fl).
  assert (NZ : never_zeros truth u num sh (s_axes r) l).
  { destruct Fl as [F1 F2]. split; auto. intros idx. rewrite F2. split; intros (e & E1 & E2 & E3); exists e; (split; [now apply IR|]); (split; [now apply Vr|auto]). }
  assert (DD : s_axes r = [] \/ s_axes r <> []) by (destruct (s_axes r); [now left|right; discriminate]). destruct DD as [D0|D0].
  - exists [], l. rewrite (na_nonzero_0d truth r Wr D0). split; [reflexivity|]. split; [constructor|]. split; [intros ax; rewrite <- KR, D0; reflexivity|].
    split; [now rewrite D0 in NZ|]. intros ax b Hb. discriminate.
  - destruct (na_nonzero_spec truth r l Wr D0 Fl) as (d & Ed & Kd & Vd). exists d, l. rewrite Kd. split; auto. split; [apply Wr|]. split; auto. split; auto.
    intros ax b Hb. destruct (Vd ax b Hb) as (V1 & V2 & V3). split; auto. split; auto. intros e He. destruct (V3 e He) as (p & P1 & P2 & P3 & P4).
    exists p. split; [now apply IR|]. split; [now apply Vr|]. split; auto.
Qed.

Theorem u_nonzero_certain {A} (truth : A -> bool) mul prod (u : unc A) :
  u_wf u -> ~ In axis_distribution (dkeys (op_shape (u_distribution u))) ->
  u_nonzero truth mul prod u = Err (match u_distribution u with OpArr _ => ValueError | OpNum _ => TypeError end).
Proof.
  intros (_ & Wd & _) D. unfold u_nonzero. destruct (u_distribution u) as [d|x]; [|reflexivity]. cbn in Wd, D.
  assert (R := reduce_spec true prod d (Some [axis_distribution]) false None Wd ltac:(discriminate)). cbv zeta in R.
  replace (broadcast_shapes [sshape d]) with (Ok (sshape d)) in R.
  2:{ symmetry. apply (DerivedFacts.bs_covered (sshape d) []); [now apply wf_nodup|intros s []]. }
  destruct R as [_ R]. rewrite R; [reflexivity|]. intros (_ & I & _). apply D. apply I. now left.
Qed.
