(** Facts about taking the positions of uncertain scalars apart. *)
From Coq Require Import String List Arith ZArith Bool Lia.
From Verif Require Import Base BaseFacts Numpy NumpyFacts Shapes Scalar Elementwise Reorder Uncertain UncertainUnravel
  Spec SpecUncertain ShapesFacts AlignFacts ElementwiseFacts ReduceFacts ReorderFacts SortingFacts RankdataFacts
  UncertainFacts UncertainIndexFacts UncertainArgFacts.
Import ListNotations.
Open Scope nat_scope.
Open Scope list_scope.

Lemma unravel_refused (a : sarr Z) sh e : na_unravel_index a sh = Err e -> e = ValueError.
Proof.
  unfold na_unravel_index. destruct (np_unravel_index (s_nd a) (dvals sh)) as [l|x] eqn:E; cbn [bind].
  - generalize (combine (dkeys sh) l). intros q. generalize (@nil (string * sarr Z)). induction q as [|[k n] q IH]; intros d; cbn [foldM]; [discriminate|].
    unfold mk_sarr at 1. cbn [fst snd]. repeat match goal with |- context [if ?b then _ else _] => destruct b end; cbn [bind]; try congruence; apply IH.
  - unfold np_unravel_index in E. repeat match type of E with context [if ?b then _ else _] => destruct b end; congruence.
Qed.

Lemma Forall2_weaken {A B} (P Q : A -> B -> Prop) l m : (forall x y, In x l -> P x y -> Q x y) -> Forall2 P l m -> Forall2 Q l m.
Proof. intros H F. induction F; constructor; [apply H; auto; now left|]. apply IHF. intros x' y' I. apply H. now right. Qed.

Theorem u_unravel_spec (u : unc Z) sh : u_wf u -> NoDup (dkeys sh) -> sh <> [] ->
  let valid := forall w e, u_inside u w e -> (0 <= u_at (Uncertain u) w e < Z.of_nat (total_size sh (dkeys sh)))%Z in
  (valid -> exists d, u_unravel_index u sh = Ok d /\ dkeys d = dkeys sh /\
     (forall ax v, dget d ax = Some v -> u_wf v /\ op_shape (u_nominal v) = op_shape (u_nominal u) /\ op_shape (u_distribution v) = op_shape (u_distribution u)) /\
     forall w e, u_inside u w e -> exists idx : list nat,
       Forall2 (fun kv i => i < snd kv /\ exists v, dget d (fst kv) = Some v /\ u_at (Uncertain v) w e = Z.of_nat i) sh idx /\
       Z.of_nat (row_major (dvals sh) idx) = u_at (Uncertain u) w e) /\
  (~ valid -> u_unravel_index u sh = Err ValueError).
Proof.
  intros (Wn & Wd & Wx) N NE valid.
  set (n := normalize (u_nominal u)). set (d := normalize (u_distribution u)).
  assert (Wn' : wf n) by now apply normalize_wf. assert (Wd' : wf d) by now apply normalize_wf.
  assert (U : u_unravel_index u sh = (result_nominal <- na_unravel_index n sh ;; result_distribution <- na_unravel_index d sh ;;
      mapM (fun ax => match dget result_nominal ax, dget result_distribution ax with
        | Some n, Some d => v <- mk_unc (OpArr n) (OpArr d) ;; Ok (ax, v) | _, _ => Err KeyError end) (dkeys sh))).
  { destruct sh; [congruence|reflexivity]. }
  assert (Sn := unravel_index_success n sh Wn' N). assert (Sd := unravel_index_success d sh Wd' N).
  assert (An : forall e, u_inside u None e -> u_at (Uncertain u) None e = at_ n e).
  { intros e He. cbn. rewrite <- normalize_at. fold n. apply bat_inside; auto. unfold n. rewrite normalize_shape. exact He. }
  assert (Ad : forall k e, u_inside u (Some k) e -> u_at (Uncertain u) (Some k) e = at_ d (set_env e axis_distribution k)).
  { intros k e He. cbn. rewrite <- normalize_at. fold d. apply bat_inside; auto. unfold d. rewrite normalize_shape. exact He. }
  assert (SE : forall e ax, set_env e axis_distribution (e axis_distribution) ax = e ax).
  { intros e ax. unfold set_env. destruct (String.eqb_spec ax axis_distribution) as [->|]; auto. }
  assert (IN : forall e, inside e (sshape d) -> u_inside u (Some (e axis_distribution)) e).
  { intros e He ax m Hm. rewrite SE. apply (He ax). unfold d. now rewrite normalize_shape. }
  assert (VD : forall e, at_ d (set_env e axis_distribution (e axis_distribution)) = at_ d e) by (intros e; apply at_respects; apply SE).
  split.
  - intros V.
    destruct (proj2 Sn) as (rn & En). { split; [congruence|]. intros e He. rewrite <- An; [apply V|]; cbn; unfold n in He; now rewrite normalize_shape in He. }
    destruct (proj2 Sd) as (rd & Ed). { split; [congruence|]. intros e He. rewrite <- VD, <- Ad; [apply V|]; now apply IN. }
    destruct (unravel_index_spec n sh rn Wn' N En) as (Kn & Pn & Qn). destruct (unravel_index_spec d sh rd Wd' N Ed) as (Kd & Pd & Qd).
    rewrite U, En. cbn [bind]. rewrite Ed. cbn [bind].
    assert (G : forall ax, In ax (dkeys sh) -> exists a b, dget rn ax = Some a /\ dget rd ax = Some b /\ mk_unc (OpArr a) (OpArr b) = Ok (mkU (OpArr a) (OpArr b))).
    { intros ax Hax. destruct (dget rn ax) as [a|] eqn:Ea; [|apply dget_None in Ea; rewrite Kn in Ea; contradiction].
      destruct (dget rd ax) as [b|] eqn:Eb; [|apply dget_None in Eb; rewrite Kd in Eb; contradiction].
      exists a, b. split; auto. split; auto. apply mk_unc_intro. cbn [op_shape]. destruct (Pn ax a Ea) as [_ ->]. unfold n. now rewrite normalize_shape. }
    set (f := fun ax => match dget rn ax, dget rd ax with Some n, Some d => v <- mk_unc (OpArr n) (OpArr d) ;; Ok (ax, v) | _, _ => Err KeyError end).
    assert (M : forall l, incl l (dkeys sh) -> NoDup l -> exists r, mapM f l = Ok r /\ dkeys r = l /\
        forall ax, In ax l -> exists a b, dget rn ax = Some a /\ dget rd ax = Some b /\ dget r ax = Some (mkU (OpArr a) (OpArr b))).
    { induction l as [|x l IH]; intros I NL. { exists []. split; [reflexivity|]. split; [reflexivity|]. intros ax []. }
      inversion NL; subst. destruct (IH ltac:(intros y Hy; apply I; now right)) as (r & Er & Kr & Gr); auto.
      destruct (G x (I x (or_introl eq_refl))) as (a & b & Ea & Eb & Ec).
      exists ((x, mkU (OpArr a) (OpArr b)) :: r). split. { cbn [mapM]. unfold f at 1. rewrite Ea, Eb, Ec. cbn [bind]. now rewrite Er. }
      split. { cbn. now f_equal. }
      intros ax [<-|Hax]. { exists a, b. split; auto. split; auto. cbn. now rewrite String.eqb_refl. }
      destruct (Gr ax Hax) as (a' & b' & H3 & H4 & H5). exists a', b'. split; auto. split; auto. cbn.
      destruct (String.eqb_spec x ax) as [->|]; [contradiction|]. destruct (String.eqb_spec ax x) as [->|]; [contradiction|]. exact H5. }
    destruct (M (dkeys sh) (incl_refl _) N) as (r & Er & Kr & Gr). exists r. split; [exact Er|]. split; [exact Kr|]. split.
    + intros ax v Hv. assert (Hax : In ax (dkeys sh)). { rewrite <- Kr. apply dget_In in Hv. now apply (in_map fst) in Hv. }
      destruct (Gr ax Hax) as (a & b & Ea & Eb & Ec). rewrite Ec in Hv. injection Hv as <-. cbn [u_nominal u_distribution op_shape].
      destruct (Pn ax a Ea) as [Wa Sa]. destruct (Pd ax b Eb) as [Wb Sb]. unfold n in Sa. unfold d in Sb. rewrite normalize_shape in Sa, Sb.
      split; [|auto]. split; [exact Wa|]. split; [exact Wb|]. cbn [u_nominal op_shape]. now rewrite Sa.
    + intros [k|] e He.
      * assert (I : inside (set_env e axis_distribution k) (sshape d)) by (unfold d; now rewrite normalize_shape).
        destruct (Qd _ I) as (idx & F & R). exists idx. split; [|rewrite Ad; auto].
        apply (Forall2_weaken _ _ _ _) with (2 := F). intros kv i Hkv (L & v & Hv & Hx).
        split; auto. destruct (Gr (fst kv) (in_map fst _ _ Hkv)) as (a & b & Ea & Eb & Ec). exists (mkU (OpArr a) (OpArr b)). split; auto.
        rewrite Eb in Hv. injection Hv as <-. cbn [u_at u_distribution op_at]. destruct (Pd _ b Eb) as [Wb Sb]. rewrite bat_inside; auto. now rewrite Sb.
      * assert (I : inside e (sshape n)) by (unfold n; now rewrite normalize_shape).
        destruct (Qn _ I) as (idx & F & R). exists idx. split; [|rewrite An; auto].
        apply (Forall2_weaken _ _ _ _) with (2 := F). intros kv i Hkv (L & v & Hv & Hx).
        split; auto. destruct (Gr (fst kv) (in_map fst _ _ Hkv)) as (a & b & Ea & Eb & Ec). exists (mkU (OpArr a) (OpArr b)). split; auto.
        rewrite Ea in Hv. injection Hv as <-. cbn [u_at u_nominal op_at]. destruct (Pn _ a Ea) as [Wa Sa]. rewrite bat_inside; auto. now rewrite Sa.
  - intros V. rewrite U.
    destruct (na_unravel_index n sh) as [rn|x] eqn:En; cbn [bind]; [|now rewrite (unravel_refused _ _ _ En)].
    destruct (na_unravel_index d sh) as [rd|x] eqn:Ed; cbn [bind]; [|now rewrite (unravel_refused _ _ _ Ed)].
    exfalso. apply V. destruct (proj1 Sn (ex_intro _ rn eq_refl)) as [_ Bn]. destruct (proj1 Sd (ex_intro _ rd eq_refl)) as [_ Bd].
    intros [k|] e He; [rewrite Ad by auto; apply Bd|rewrite An by auto; apply Bn]; [unfold d|unfold n]; rewrite normalize_shape; exact He.
Qed.

Theorem u_unravel_empty (u : unc Z) : u_unravel_index u [] = Ok [].
Proof. reflexivity. Qed.
