(** Facts about the secant method. *)
From Coq Require Import String List Arith ZArith Bool Lia.
From Verif Require Import Base BaseFacts Numpy NumpyFacts Shapes Scalar Elementwise Reduce Vector Matrix Optimize
  Spec SpecDerived SpecVector SpecMatrix SpecOptimize ShapesFacts AlignFacts GetitemFacts ReduceFacts SortingFacts VectorFacts
  CartesianFacts VectorIndexFacts LinspaceFacts ElementwiseFacts SetitemFacts MatrixFacts OptimizeFacts.
Import ListNotations.
Open Scope nat_scope.
Open Scope list_scope.

(** ** Updates in place *)

Lemma update_spec {A} (d : A) (h : A -> A -> A) a b : wf a -> wf b ->
  (fits_in (sshape b) (sshape a) ->
   exists r, update d h a b = Ok r /\ wf r /\ sshape r = sshape a /\
     forall e, inside e (sshape a) -> at_ r e = h (at_ a e) (bat b e)) /\
  (~ fits_in (sshape b) (sshape a) -> update d h a b = Err ValueError).
Proof.
  intros Wa Wb.
  destruct (ufunc_out_spec (fun _ => d) [fun l => h (nth 0 l d) (nth 1 l d)] [OpArr a; OpArr b] None [Some a] a) as (X1 & X2); auto.
  { now left. }
  { intros o [E|[]]. injection E as <-. auto. }
  unfold update. split.
  - intros S. destruct X1 as (rs & E & R).
    { split; [intros o [Eo|[]]; injection Eo as <-; reflexivity|]. split; [|exact Logic.I].
      constructor; [apply fits_refl|]. constructor; [exact S|constructor]. }
    rewrite E. cbn [bind]. simpl in R. inversion R as [|p r l l' Hr Rl]; subst. inversion Rl; subst.
    destruct Hr as (Wr & Sr & V). exists r. split; [reflexivity|]. split; [exact Wr|]. split; [exact Sr|].
    intros e I. destruct (V e I) as (V1 & _). rewrite V1 by reflexivity. simpl. now rewrite bat_inside.
  - intros S. rewrite X2; [reflexivity|]. intros (_ & Fo & _). apply S. inversion Fo as [|? ? _ Fo']; subst. now inversion Fo'.
Qed.

Lemma update_inv {A} (d : A) (h : A -> A -> A) a b r : wf a -> wf b -> update d h a b = Ok r -> ~ ~ fits_in (sshape b) (sshape a).
Proof. intros Wa Wb E X. apply (update_spec d h a b Wa Wb) in X. congruence. Qed.

Lemma fits_dec (s t : shape) : {fits_in s t} + {~ fits_in s t}.
Proof.
  assert (P : forall p : string * nat, {exists m, In (fst p, m) t /\ (snd p = 1 \/ snd p = m)} + {~ exists m, In (fst p, m) t /\ (snd p = 1 \/ snd p = m)}).
  { intros (ax, n). simpl. induction t as [|(k, m) t IH].
    - right. intros (m & [] & _).
    - destruct IH as [IH|IH].
      + left. destruct IH as (m' & H & C). exists m'. split; [now right|exact C].
      + destruct (string_dec k ax) as [-> |D].
        * destruct (Nat.eq_dec n 1) as [-> |N1]; [left; exists m; split; [now left|auto]|].
          destruct (Nat.eq_dec n m) as [-> |Nm]; [left; exists m; split; [now left|auto]|].
          right. intros (m' & [E|H] & C); [injection E as <-; tauto|]. apply IH. eauto.
        * right. intros (m' & [E|H] & C); [congruence|]. apply IH. eauto. }
  destruct (Forall_dec _ P s) as [H|H].
  - left. intros ax n Hn. rewrite Forall_forall in H. apply (H (ax, n) Hn).
  - right. intros X. apply H. apply Forall_forall. intros (ax, n) Hn. now apply X.
Qed.

Lemma update_inv_fits {A} (d : A) (h : A -> A -> A) a b r : wf a -> wf b -> update d h a b = Ok r -> fits_in (sshape b) (sshape a).
Proof. intros Wa Wb E. destruct (fits_dec (sshape b) (sshape a)) as [H|H]; [exact H|]. now apply (update_inv d h a b r Wa Wb E) in H. Qed.

(** ** Masks over all axes *)

Lemma broadcast_largest l r s : Forall (fun s => NoDup (dkeys s)) l -> broadcast_shapes l = Ok r -> In s l ->
  (forall t, In t l -> fits_in t s) -> same_shape r s.
Proof.
  intros N E H Fs ax n. assert (Ns : NoDup (dkeys s)) by (rewrite Forall_forall in N; auto).
  assert (Nr : NoDup (dkeys r)) by (apply (broadcast_shapes_ok _ _ N E)).
  assert (A1 : forall ax n, In (ax, n) r -> exists m, In (ax, m) s /\ (n = 1 \/ n = m)).
  { clear ax n. intros ax n Hn. destruct (broadcast_attained _ _ ax n N E Hn) as (t & Ht & Hn'). exact (Fs t Ht ax n Hn'). }
  assert (C : forall ax n, In (ax, n) s -> exists m, In (ax, m) r /\ (n = 1 \/ n = m)) by exact (broadcast_fits _ _ _ N E H).
  split; intros Hn.
  - destruct (A1 ax n Hn) as (m & Hm & [-> | ->]); [|exact Hm].
    destruct (C ax m Hm) as (m' & Hm' & [-> | ->]); [exact Hm|].
    assert (X := dget_NoDup _ _ _ Nr Hn). rewrite (dget_NoDup _ _ _ Nr Hm') in X. injection X as ->. exact Hm.
  - destruct (C ax n Hn) as (m & Hm & [-> | ->]); [|exact Hm].
    destruct (A1 ax m Hm) as (m' & Hm' & [-> | ->]); [exact Hm|].
    assert (X := dget_NoDup _ _ _ Ns Hn). rewrite (dget_NoDup _ _ _ Ns Hm') in X. injection X as ->. exact Hm.
Qed.

Lemma fits_all_same (s t : shape) : NoDup (dkeys s) -> NoDup (dkeys t) -> fits_in s t -> (forall ax n, In (ax, n) t -> In (ax, n) s) -> same_shape s t.
Proof.
  intros Ns Nt H1 H2 ax n. split; [|apply H2]. intros Hn. destruct (H1 ax n Hn) as (m & Hm & _).
  assert (X := dget_NoDup _ _ _ Ns Hn). rewrite (dget_NoDup _ _ _ Ns (H2 _ _ Hm)) in X. injection X as ->. exact Hm.
Qed.

Lemma masked {A} (a : sarr A) (m : sarr bool) l r :
  wf a -> wf m -> true_positions m l -> fits_in (sshape a) (sshape m) -> getitem_mask a m = Ok r ->
  same_shape (sshape a) (sshape m) /\ wf r /\ sshape r = [(mask_axis (s_axes m), length l)] /\
  forall e k, inside e (sshape m) -> at_ m e = true -> nth_error l k = Some (map e (s_axes m)) ->
    forall e', e' (mask_axis (s_axes m)) = k -> at_ r e' = at_ a e.
Proof.
  intros Wa Wm TP S E. destruct (proj1 (getitem_mask_success a m Wa Wm) (ex_intro _ r E)) as (Sub & _).
  assert (Sm : same_shape (sshape a) (sshape m)) by (apply fits_all_same; auto using wf_nodup).
  split; [exact Sm|]. destruct (getitem_mask_full a m l r Wa Wm TP E) as (Wr & Ax & _ & Sz & _ & G).
  assert (Ar : s_axes r = [mask_axis (s_axes m)]).
  { rewrite Ax, filter_none; [reflexivity|]. intros ax H. rewrite <- (wf_keys a Wa) in H. apply (same_shape_keys _ _ Sm) in H.
    rewrite (wf_keys m Wm) in H. apply smem_In in H. now rewrite H. }
  split; [exact Wr|]. split.
  { assert (Kr := wf_keys r Wr). rewrite Ar in Kr. destruct (sshape r) as [|(k, v) [|q t]] eqn:Er; try discriminate. simpl in Kr.
    injection Kr as ->. destruct Sz as [Sz|[]]. now rewrite Sz. }
  intros e k I T Hk e' He'. destruct (G e) as (e1 & I1 & Hn & _ & V); [|exact T|].
  { eapply AlignFacts.same_shape_inside; [apply same_shape_sym; exact Sm|exact I]. }
  rewrite <- V. unfold at_. rewrite Ar. simpl. f_equal. f_equal. rewrite He'.
  apply (proj1 (NoDup_nth_error l) (StronglySorted_NoDup l (proj1 TP))); [apply nth_error_Some; congruence|congruence].
Qed.

(** ** One pass *)

Section Secant.
Context {F : Type} (K : arith F) (absolute : F -> F) (less : F -> F -> bool).
Variables (function : sarr F -> res (sarr F)) (min_step tolerance : sarr F) (damping : option F) (sh : shape).
Hypotheses (Hf : returns_wf function) (Wm : wf min_step) (Wt : wf tolerance) (St : sshape tolerance = [])
  (Nsh : NoDup (dkeys sh)) (Fm : fits_in (sshape min_step) sh).

Notation t := (single tolerance).

Definition flags_after (x0 x1 f1 : sarr F) (c : sarr bool) (e : env) : bool :=
  at_ c e || less (absolute (bat f1 e)) t || less (absolute (minus K (at_ x1 e) (bat x0 e))) (absolute (bat min_step e)).

Lemma secant_flags_ok x0 x1 f1 c :
  wf x0 -> fits_in (sshape x0) sh -> wf x1 -> sshape x1 = sh -> wf f1 -> fits_in (sshape f1) sh -> wf c -> sshape c = sh ->
  exists dx c', secant_flags K absolute less min_step tolerance x0 x1 f1 c = Ok (dx, c') /\
    wf dx /\ same_shape (sshape dx) sh /\ (forall e, inside e sh -> at_ dx e = minus K (at_ x1 e) (bat x0 e)) /\
    wf c' /\ sshape c' = sh /\ forall e, inside e sh -> at_ c' e = flags_after x0 x1 f1 c e.
Proof.
  intros W0 F0 W1 S1 Wf Ff Wc Sc. unfold secant_flags.
  assert (R1 : reads sh (OpArr x1) (at_ x1)) by (rewrite <- S1; now apply reads_own).
  assert (R0 := reads_self sh (OpArr x0) W0 F0). assert (Rf := reads_self sh (OpArr f1) Wf Ff).
  assert (Rm := reads_self sh (OpArr min_step) Wm Fm). simpl in R0, Rf, Rm.
  destruct (u1_reads (zero K) absolute sh f1 _ Nsh Rf) as (size & E & Rs). rewrite E. cbn [bind]. clear E.
  destruct (u2_reads (zero K) less sh size tolerance _ _ Nsh Rs (tolerance_reads tolerance Wt St sh)) as (small & E & Ra). rewrite E. cbn [bind]. clear E.
  destruct (update_spec false orb c small Wc (proj1 Ra)) as (U & _). rewrite Sc in U.
  destruct (U (proj1 (proj2 Ra))) as (c1 & E & Wc1 & Sc1 & Vc1). rewrite E. cbn [bind]. clear E U.
  destruct (u2_reads (zero K) (minus K) sh x1 x0 _ _ Nsh R1 R0) as (dx & Ed & Rd). rewrite Ed. cbn [bind].
  destruct (u1_reads (zero K) absolute sh dx _ Nsh Rd) as (adx & E & Rad). rewrite E. cbn [bind]. clear E.
  destruct (u1_reads (zero K) absolute sh min_step _ Nsh Rm) as (ams & E & Ram). rewrite E. cbn [bind]. clear E.
  destruct (u2_reads (zero K) less sh adx ams _ _ Nsh Rad Ram) as (short & E & Rsh). rewrite E. cbn [bind]. clear E.
  destruct (update_spec false orb c1 short Wc1 (proj1 Rsh)) as (U & _). rewrite Sc1 in U.
  destruct (U (proj1 (proj2 Rsh))) as (c2 & E & Wc2 & Sc2 & Vc2). rewrite E. cbn [bind]. clear E U.
  exists dx, c2. split; [reflexivity|]. destruct Rd as (Wd & Fd & Vd). split; [exact Wd|].
  assert (Sd : same_shape (sshape dx) sh).
  { destruct (u2_inv _ _ _ _ _ W1 W0 Ed) as (_ & B & _). rewrite S1 in B. eapply broadcast_largest; [|exact B|now left|].
    - repeat constructor; auto. now apply wf_nodup.
    - intros s [<- |[<- |[]]]; [apply fits_refl|exact F0]. }
  split; [exact Sd|]. split.
  { intros e I. rewrite <- Vd by exact I. simpl. rewrite bat_inside; auto. eapply AlignFacts.same_shape_inside; [apply same_shape_sym; exact Sd|exact I]. }
  split; [exact Wc2|]. split; [congruence|]. intros e I. rewrite Vc2 by exact I. rewrite Vc1 by exact I. unfold flags_after.
  f_equal; [f_equal|].
  - destruct Ra as (_ & _ & V). exact (V e I).
  - destruct Rsh as (_ & _ & V). exact (V e I).
Qed.

Lemma secant_flags_fits x0 x1 f1 c p :
  wf f1 -> wf c -> sshape c = sh -> secant_flags K absolute less min_step tolerance x0 x1 f1 c = Ok p ->
  fits_in (sshape f1) sh.
Proof.
  intros Wf Wc Sc E. unfold secant_flags in E.
  destruct (flags_spec K absolute less tolerance Wt St f1 Wf) as (size & small & E1 & E2 & W2 & S2 & _).
  rewrite E1 in E. cbn [bind] in E. rewrite E2 in E. cbn [bind] in E.
  destruct (update false orb c small) as [c1|] eqn:U; [|discriminate]. apply update_inv_fits in U; auto. rewrite <- S2, <- Sc. exact U.
Qed.

(** the elements that are still moving *)
Lemma secant_move_inv x0 x1 f0 f1 dx active x2 :
  wf x1 -> sshape x1 = sh -> wf f0 -> fits_in (sshape f0) sh -> wf f1 -> fits_in (sshape f1) sh ->
  wf dx -> same_shape (sshape dx) sh -> (forall e, inside e sh -> at_ dx e = minus K (at_ x1 e) (bat x0 e)) ->
  wf active -> sshape active = sh ->
  secant_move K damping x1 f0 f1 dx active = Ok x2 ->
  wf x2 /\ sshape x2 = sh /\
  forall e, inside e sh ->
    (at_ active e = false -> at_ x2 e = at_ x1 e) /\
    (at_ active e = true -> is_zero K (minus K (bat f1 e) (bat f0 e)) = false /\
       at_ x2 e = secant_formula K damping (bat x0 e) (at_ x1 e) (bat f0 e) (bat f1 e)).
Proof.
  intros W1 S1 Wf0 Ff0 Wf1 Ff1 Wd Sd Vd Wa Sa E. unfold secant_move in E.
  destruct (u2 (zero K) (minus K) f1 f0) as [df|]; [cbn [bind] in E|discriminate].
  destruct (u1 (zero K) (is_zero K) df) as [flat|]; [cbn [bind] in E|discriminate].
  destruct (any_true flat (Some active)) as [[|]|]; [discriminate| cbn [bind] in E|discriminate].
  assert (TP := mask_positions active Wa). set (l := filter _ _) in TP. clearbody l.
  set (M := mask_axis (s_axes active)) in *. set (B := [(M, length l)] : shape).
  assert (NB : NoDup (dkeys B)) by (repeat constructor; auto).
  destruct (getitem_mask dx active) as [dxa|] eqn:Edx; [cbn [bind] in E|discriminate].
  destruct (getitem_mask f0 active) as [f0a|] eqn:Ef0; [cbn [bind] in E|discriminate].
  destruct (getitem_mask f1 active) as [f1a|] eqn:Ef1; [cbn [bind] in E|discriminate].
  destruct (masked dx active l dxa Wd Wa TP) as (_ & Wdxa & Sdxa & Vdxa); [|exact Edx|].
  { intros ax n H. exists n. rewrite Sa. split; [now apply Sd|auto]. }
  destruct (masked f0 active l f0a Wf0 Wa TP) as (Sf0 & Wf0a & Sf0a & Vf0a); [now rewrite Sa|exact Ef0|].
  destruct (masked f1 active l f1a Wf1 Wa TP) as (Sf1 & Wf1a & Sf1a & Vf1a); [now rewrite Sa|exact Ef1|].
  fold M in Sdxa, Sf0a, Sf1a, Vdxa, Vf0a, Vf1a. fold B in Sdxa, Sf0a, Sf1a.
  assert (Rd := reads_own dxa Wdxa). assert (R0 := reads_own f0a Wf0a). assert (R1 := reads_own f1a Wf1a).
  rewrite Sdxa in Rd. rewrite Sf0a in R0. rewrite Sf1a in R1.
  destruct (u2_reads (zero K) (minus K) B f1a f0a _ _ NB R1 R0) as (dfa & E1 & Rdf). rewrite E1 in E. cbn [bind] in E. clear E1.
  destruct (u1_reads (zero K) (is_zero K) B dfa _ NB Rdf) as (fla & E1 & Rfl). rewrite E1 in E. cbn [bind] in E. clear E1.
  destruct (any_true_spec fla None (proj1 Rfl) Logic.I) as (b & Eb & Hb). rewrite Eb in E. cbn [bind] in E. clear Eb.
  destruct b; [discriminate|].
  assert (NZ : forall e1, inside e1 B -> is_zero K (minus K (at_ f1a e1) (at_ f0a e1)) = false).
  { intros e1 I1. destruct Rfl as (Wfl & Ffl & Vfl). rewrite <- (Vfl e1 I1). simpl.
    destruct (bat fla e1) eqn:X; [|reflexivity]. assert (Y : false = true); [|discriminate]. apply Hb. exists (bclamp (sshape fla) e1).
    split; [|split; [exact Logic.I|exact X]]. apply clamp_inside; [now apply wf_nodup|]. eapply fits_within; eauto. }
  destruct (u2_reads (zero K) (over K) B dfa dxa _ _ NB Rdf Rd) as (slope & E1 & Rs). rewrite E1 in E. cbn [bind] in E. clear E1.
  destruct (u2_reads (zero K) (over K) B f1a slope _ _ NB R1 Rs) as (corr & E1 & Rc). rewrite E1 in E. cbn [bind] in E. clear E1.
  assert (X : exists corr', match damping with
                    | Some d => array_ufunc (fun l => times K (nth 0 l (zero K)) (nth 1 l (zero K)))
                                  [OpNum d; OpArr corr]
                    | None => Ok corr
                    end = Ok corr' /\ reads B (OpArr corr') (fun e =>
             let c := over K (at_ f1a e) (over K (minus K (at_ f1a e) (at_ f0a e)) (at_ dxa e)) in
             match damping with Some d => times K d c | None => c end)).
  { destruct damping as [d|].
    - exact (num_reads (zero K) (times K) B d corr _ NB Rc).
    - exists corr. split; [reflexivity|exact Rc]. }
  destruct X as (corr' & E1 & Rc'). rewrite E1 in E. cbn [bind] in E. clear E1.
  destruct (getitem_mask x1 active) as [ch|] eqn:Ech; [cbn [bind] in E|discriminate].
  destruct (masked x1 active l ch W1 Wa TP) as (_ & Wch & Sch & Vch); [rewrite S1, Sa; apply fits_refl|exact Ech|].
  fold M in Sch, Vch. fold B in Sch.
  destruct (update_spec (zero K) (minus K) ch corr' Wch (proj1 Rc')) as (U & _). rewrite Sch in U.
  destruct (U (proj1 (proj2 Rc'))) as (ch' & E1 & Wch' & Sch' & Vch'). rewrite E1 in E. cbn [bind] in E. clear E1 U.
  assert (XX : In M (s_axes x1) -> In M (s_axes active)).
  { rewrite <- (wf_keys x1 W1), <- (wf_keys active Wa), S1, Sa. auto. }
  destruct (setitem_mask_full x1 active (OpArr ch') l x2 W1 Wa Wch' TP XX E) as (W2 & S2 & V2).
  split; [exact W2|]. split; [congruence|]. intros e I. destruct (V2 e ltac:(now rewrite S1)) as (V2a & V2b).
  split; [exact V2a|]. intros T. destruct (V2b T) as (k & Hk & V). fold M in V. set (e1 := set_env e M k) in *.
  assert (I1 : inside e1 B).
  { intros ax n [H|[]]. injection H as <- <-. unfold e1, set_env. rewrite String.eqb_refl. apply nth_error_Some. congruence. }
  assert (Ek : e1 M = k) by (unfold e1, set_env; now rewrite String.eqb_refl).
  assert (Ia : inside e (sshape active)) by now rewrite Sa.
  assert (Bf1 : bat f1 e = at_ f1 e).
  { apply bat_inside; [exact Wf1|]. eapply AlignFacts.same_shape_inside; [apply same_shape_sym; exact Sf1|exact Ia]. }
  assert (Bf0 : bat f0 e = at_ f0 e).
  { apply bat_inside; [exact Wf0|]. eapply AlignFacts.same_shape_inside; [apply same_shape_sym; exact Sf0|exact Ia]. }
  specialize (NZ e1 I1). rewrite (Vf1a e k Ia T Hk e1 Ek), (Vf0a e k Ia T Hk e1 Ek) in NZ.
  rewrite Bf1, Bf0. split; [exact NZ|]. rewrite V. simpl. rewrite bat_inside by (try exact Wch'; now rewrite Sch').
  rewrite Vch' by exact I1. rewrite (Vch e k Ia T Hk e1 Ek).
  destruct Rc' as (_ & _ & Vc'). assert (Vc1 := Vc' e1 I1). cbv beta zeta in Vc1. cbn [op_at] in Vc1. rewrite Vc1.
  rewrite (Vf1a e k Ia T Hk e1 Ek), (Vf0a e k Ia T Hk e1 Ek), (Vdxa e k Ia T Hk e1 Ek), Vd by exact I. reflexivity.
Qed.

(** nothing but a stationary point can go wrong when the shapes agree *)
Lemma secant_move_total x1 f0 f1 dx active :
  wf x1 -> sshape x1 = sh -> wf f0 -> same_shape (sshape f0) sh -> wf f1 -> same_shape (sshape f1) sh ->
  wf dx -> same_shape (sshape dx) sh -> wf active -> sshape active = sh ->
  (exists x2, secant_move K damping x1 f0 f1 dx active = Ok x2) \/
  (secant_move K damping x1 f0 f1 dx active = Err ValueError /\
   exists e, inside e sh /\ at_ active e = true /\ is_zero K (minus K (bat f1 e) (bat f0 e)) = true).
Proof.
  intros W1 S1 Wf0 Sf0 Wf1 Sf1 Wd Sd Wa Sa. unfold secant_move.
  assert (SF : forall s, same_shape s sh -> fits_in s sh) by (intros s H ax n Hn; exists n; split; [now apply H|auto]).
  assert (R1 := reads_self sh (OpArr f1) Wf1 (SF _ Sf1)). assert (R0 := reads_self sh (OpArr f0) Wf0 (SF _ Sf0)). simpl in R1, R0.
  destruct (u2_reads (zero K) (minus K) sh f1 f0 _ _ Nsh R1 R0) as (df & Edf & Rdf). rewrite Edf. cbn [bind].
  assert (Sdf : same_shape (sshape df) sh).
  { destruct (u2_inv _ _ _ _ _ Wf1 Wf0 Edf) as (_ & B & _). assert (X : same_shape (sshape df) (sshape f1)).
    { eapply broadcast_largest; [|exact B|now left|].
      - repeat constructor; auto using wf_nodup.
      - intros s [<- |[<- |[]]]; [apply fits_refl|]. intros ax n H. exists n. split; [|auto]. apply Sf1. now apply Sf0. }
    eapply same_shape_trans; [exact X|exact Sf1]. }
  destruct (u1_ok (zero K) (is_zero K) df (proj1 Rdf)) as (flat & Efl & Wfl & Sfl & Vfl). rewrite Efl. cbn [bind].
  destruct (any_true_spec flat (Some active) Wfl) as (b & Eb & Hb).
  { split; [exact Wa|]. rewrite Sa, Sfl. now apply same_shape_sym. }
  rewrite Eb. cbn [bind].
  assert (Vdf : forall e, inside e sh -> at_ df e = minus K (bat f1 e) (bat f0 e)).
  { intros e I. destruct Rdf as (Wdf & _ & V). symmetry. etransitivity; [symmetry; exact (V e I)|]. apply bat_inside; [exact Wdf|].
    eapply AlignFacts.same_shape_inside; [apply same_shape_sym; exact Sdf|exact I]. }
  destruct b.
  { right. split; [reflexivity|]. destruct (proj1 Hb eq_refl) as (e & I & Ta & Tf). exists e. rewrite Sfl in I.
    rewrite Vfl in Tf by exact I. assert (I' : inside e sh) by (eapply AlignFacts.same_shape_inside; eauto).
    rewrite Vdf in Tf by exact I'. auto. }
  assert (Hm : forall a : sarr F, wf a -> same_shape (sshape a) sh -> exists r, getitem_mask a active = Ok r).
  { intros a W S. apply getitem_mask_success; auto. split; [rewrite Sa; apply S|].
    intros H. rewrite <- (wf_keys a W) in H. apply (same_shape_keys _ _ S) in H. rewrite <- Sa, (wf_keys active Wa) in H. exact H. }
  assert (TP := mask_positions active Wa). set (l := filter _ _) in TP. clearbody l.
  set (M := mask_axis (s_axes active)) in *. set (B := [(M, length l)] : shape).
  assert (NB : NoDup (dkeys B)) by (repeat constructor; auto).
  destruct (Hm dx Wd Sd) as (dxa & Edx). rewrite Edx. cbn [bind].
  destruct (Hm f0 Wf0 Sf0) as (f0a & Ef0). rewrite Ef0. cbn [bind].
  destruct (Hm f1 Wf1 Sf1) as (f1a & Ef1). rewrite Ef1. cbn [bind].
  destruct (masked dx active l dxa Wd Wa TP) as (_ & Wdxa & Sdxa & Vdxa); [rewrite Sa; auto|exact Edx|].
  destruct (masked f0 active l f0a Wf0 Wa TP) as (_ & Wf0a & Sf0a & Vf0a); [rewrite Sa; auto|exact Ef0|].
  destruct (masked f1 active l f1a Wf1 Wa TP) as (_ & Wf1a & Sf1a & Vf1a); [rewrite Sa; auto|exact Ef1|].
  fold M in Sdxa, Sf0a, Sf1a, Vf0a, Vf1a. fold B in Sdxa, Sf0a, Sf1a.
  assert (Rd := reads_own dxa Wdxa). assert (Rb0 := reads_own f0a Wf0a). assert (Rb1 := reads_own f1a Wf1a).
  rewrite Sdxa in Rd. rewrite Sf0a in Rb0. rewrite Sf1a in Rb1.
  destruct (u2_reads (zero K) (minus K) B f1a f0a _ _ NB Rb1 Rb0) as (dfa & E1 & Rdfa). rewrite E1. cbn [bind].
  assert (Sdfa : same_shape (sshape dfa) B).
  { destruct (u2_inv _ _ _ _ _ Wf1a Wf0a E1) as (_ & Bc & _). rewrite Sf1a, Sf0a in Bc. eapply broadcast_largest; [|exact Bc|now left|].
    - repeat constructor; auto.
    - intros s [<- |[<- |[]]]; apply fits_refl. }
  clear E1.
  destruct (u1_ok (zero K) (is_zero K) dfa (proj1 Rdfa)) as (fla & E1 & Wfla & Sfla & Vfla). rewrite E1. cbn [bind]. clear E1.
  destruct (any_true_spec fla None Wfla Logic.I) as (b & Eb' & Hb'). rewrite Eb'. cbn [bind]. clear Eb'.
  destruct b.
  { right. split; [reflexivity|]. destruct (proj1 Hb' eq_refl) as (e1 & I1 & _ & T1). rewrite Sfla in I1. rewrite Vfla in T1 by exact I1.
    assert (I1' : inside e1 B) by (eapply AlignFacts.same_shape_inside; eauto).
    destruct (nth_error l (e1 M)) as [idx|] eqn:Hn.
    2:{ apply nth_error_None in Hn. specialize (I1' M (length l) ltac:(now left)). lia. }
    assert (Hin := nth_error_In _ _ Hn). apply (proj2 TP) in Hin. destruct Hin as (e & I & T & ->).
    exists e. rewrite Sa in I. split; [exact I|]. split; [exact T|]. rewrite <- Sa in I.
    assert (Bf1 : bat f1 e = at_ f1 e).
    { apply bat_inside; [exact Wf1|]. eapply AlignFacts.same_shape_inside; [apply same_shape_sym; exact Sf1|]. now rewrite <- Sa. }
    assert (Bf0 : bat f0 e = at_ f0 e).
    { apply bat_inside; [exact Wf0|]. eapply AlignFacts.same_shape_inside; [apply same_shape_sym; exact Sf0|]. now rewrite <- Sa. }
    rewrite Bf1, Bf0, <- (Vf1a e (e1 M) I T Hn e1 eq_refl), <- (Vf0a e (e1 M) I T Hn e1 eq_refl).
    destruct Rdfa as (Wdfa & _ & Vd). rewrite <- (Vd e1 I1'). simpl. now rewrite bat_inside. }
  left.
  destruct (u2_reads (zero K) (over K) B dfa dxa _ _ NB Rdfa Rd) as (slope & E1 & Rs). rewrite E1. cbn [bind]. clear E1.
  destruct (u2_reads (zero K) (over K) B f1a slope _ _ NB Rb1 Rs) as (corr & E1 & Rc). rewrite E1. cbn [bind]. clear E1.
  assert (X : exists corr', match damping with
                    | Some d => array_ufunc (fun l => times K (nth 0 l (zero K)) (nth 1 l (zero K)))
                                  [OpNum d; OpArr corr]
                    | None => Ok corr
                    end = Ok corr' /\ wf corr' /\ fits_in (sshape corr') B).
  { destruct damping as [d|].
    - destruct (num_reads (zero K) (times K) B d corr _ NB Rc) as (c' & E' & R'). exists c'. split; [exact E'|]. split; apply R'.
    - exists corr. split; [reflexivity|]. split; apply Rc. }
  destruct X as (corr' & E1 & Wc' & Fc'). rewrite E1. cbn [bind]. clear E1.
  destruct (Hm x1 W1) as (ch & Ech); [rewrite S1; intros ax n; tauto|]. rewrite Ech. cbn [bind].
  destruct (masked x1 active l ch W1 Wa TP) as (_ & Wch & Sch & _); [rewrite S1, Sa; apply fits_refl|exact Ech|].
  fold M in Sch. fold B in Sch.
  destruct (update_spec (zero K) (minus K) ch corr' Wch Wc') as (U & _). rewrite Sch in U.
  destruct (U Fc') as (ch' & E1 & Wch' & Sch' & _). rewrite E1. cbn [bind]. clear E1 U.
  apply (setitem_mask_success x1 active (OpArr ch') W1 Wa Wch').
  { rewrite <- (wf_keys x1 W1), <- (wf_keys active Wa), S1, Sa. auto. }
  exists ch. split; [exact Ech|]. simpl. rewrite Sch', Sch. apply fits_refl.
Qed.

(** ** A whole pass *)

Lemma secant_pass_inv x0 x1 f0 f1 c r :
  wf x0 -> fits_in (sshape x0) sh -> wf x1 -> sshape x1 = sh -> wf f0 -> fits_in (sshape f0) sh -> wf f1 -> wf c -> sshape c = sh ->
  secant_pass K absolute less min_step damping tolerance x0 x1 f0 f1 c = Ok r ->
  fits_in (sshape f1) sh /\
  match r with
  | None => forall e, inside e sh -> flags_after x0 x1 f1 c e = true
  | Some (c', x2) =>
      (exists e, inside e sh /\ flags_after x0 x1 f1 c e = false) /\
      wf c' /\ sshape c' = sh /\ (forall e, inside e sh -> at_ c' e = flags_after x0 x1 f1 c e) /\
      wf x2 /\ sshape x2 = sh /\
      forall e, inside e sh ->
        (flags_after x0 x1 f1 c e = true -> at_ x2 e = at_ x1 e) /\
        (flags_after x0 x1 f1 c e = false -> is_zero K (minus K (bat f1 e) (bat f0 e)) = false /\
           at_ x2 e = secant_formula K damping (bat x0 e) (at_ x1 e) (bat f0 e) (bat f1 e))
  end.
Proof.
  intros W0 F0 W1 S1 Wf0 Ff0 Wf1 Wc Sc E. unfold secant_pass in E.
  assert (Ff1 : fits_in (sshape f1) sh).
  { destruct (secant_flags K absolute less min_step tolerance x0 x1 f1 c) as [p|] eqn:Ep; [|discriminate].
    eapply secant_flags_fits; eauto. }
  split; [exact Ff1|].
  destruct (secant_flags_ok x0 x1 f1 c W0 F0 W1 S1 Wf1 Ff1 Wc Sc) as (dx & c' & Ep & Wd & Sd & Vd & Wc' & Sc' & Vc').
  rewrite Ep in E. cbn [bind] in E.
  destruct (all_true_spec c' Wc') as (b & Eb & Hb). rewrite Eb in E. cbn [bind] in E. rewrite Sc' in Hb. destruct b.
  - injection E as <-. intros e I. rewrite <- Vc' by exact I. now apply Hb.
  - destruct (u1_ok false negb c' Wc') as (active & Ea & Wa & Sa & Va). rewrite Ea in E. cbn [bind] in E.
    destruct (secant_move K damping x1 f0 f1 dx active) as [x2|] eqn:Em; [cbn [bind] in E|discriminate]. injection E as <-.
    rewrite Sc' in Sa, Va.
    destruct (secant_move_inv x0 x1 f0 f1 dx active x2 W1 S1 Wf0 Ff0 Wf1 Ff1 Wd Sd Vd Wa Sa Em) as (W2 & S2 & V2).
    split.
    { unfold all_true in Eb. destruct (reduce_all (forallb (fun b => b)) c' None Wc' Logic.I) as (r & l & Er & Tr & H1 & _).
      simpl in Er. rewrite Er in Eb. cbn [bind] in Eb. rewrite Tr in Eb. injection Eb as Eb.
      clear - Eb H1 Sc' Vc'. induction l as [|e l IH]; [discriminate|]. simpl in Eb. apply andb_false_iff in Eb. destruct Eb as [Eb|Eb].
      - exists e. assert (I : inside e sh) by (rewrite <- Sc'; apply H1; now left). split; [exact I|]. now rewrite <- Vc'.
      - apply IH; [exact Eb|]. intros e' H. apply H1. now right. }
    do 5 (split; [assumption|]). intros e I. destruct (V2 e I) as (A1 & A2). rewrite <- Vc' by exact I.
    rewrite Va in A1, A2 by exact I. split; intros H; rewrite H in A1, A2; simpl in A1, A2; auto.
Qed.

Lemma secant_pass_total x0 x1 f0 f1 c :
  wf x0 -> fits_in (sshape x0) sh -> wf x1 -> sshape x1 = sh -> wf f0 -> same_shape (sshape f0) sh -> wf f1 -> same_shape (sshape f1) sh ->
  wf c -> sshape c = sh ->
  match secant_pass K absolute less min_step damping tolerance x0 x1 f0 f1 c with
  | Ok _ => True
  | Err e => e = ValueError /\
      exists e, inside e sh /\ flags_after x0 x1 f1 c e = false /\ is_zero K (minus K (bat f1 e) (bat f0 e)) = true
  end.
Proof.
  intros W0 F0 W1 S1 Wf0 Sf0 Wf1 Sf1 Wc Sc. unfold secant_pass.
  assert (Ff1 : fits_in (sshape f1) sh) by (intros ax n H; exists n; split; [now apply Sf1|auto]).
  destruct (secant_flags_ok x0 x1 f1 c W0 F0 W1 S1 Wf1 Ff1 Wc Sc) as (dx & c' & Ep & Wd & Sd & Vd & Wc' & Sc' & Vc').
  rewrite Ep. cbn [bind].
  destruct (all_true_spec c' Wc') as (b & Eb & Hb). rewrite Eb. cbn [bind]. destruct b; [exact Logic.I|].
  destruct (u1_ok false negb c' Wc') as (active & Ea & Wa & Sa & Va). rewrite Ea. cbn [bind]. rewrite Sc' in Sa, Va.
  destruct (secant_move_total x1 f0 f1 dx active W1 S1 Wf0 Sf0 Wf1 Sf1 Wd Sd Wa Sa) as [(x2 & E)|(E & e & I & T & Z)]; rewrite E; cbn [bind].
  - exact Logic.I.
  - split; [reflexivity|]. exists e. split; [exact I|]. split; [|exact Z]. rewrite <- Vc' by exact I.
    rewrite Va in T by exact I. now apply negb_true_iff.
Qed.

(** ** The loop *)

Notation converges' := (fun start tr k e => converges K absolute less start t min_step tr k e).

Definition done_by (start : env -> F) (c : sarr bool) (tr : list (seen F)) (k : nat) (e : env) : Prop :=
  at_ c e = true \/ converged_by K absolute less start t min_step tr k e.

Lemma converges_zero x0 s tr e : converges' (bat x0) (s :: tr) 0 e <->
  less (absolute (bat (at_f s) e)) t || less (absolute (minus K (at_ (at_x s) e) (bat x0 e))) (absolute (bat min_step e)) = true.
Proof.
  unfold converges. rewrite orb_true_iff. split.
  - intros (s' & E & H). injection E as <-. exact H.
  - intros H. exists s. split; [reflexivity|exact H].
Qed.

Lemma converges_next start x1 s tr k e : wf x1 -> inside e (sshape x1) -> at_x s = x1 ->
  (converges' start (s :: tr) (S k) e <-> converges' (bat x1) tr k e).
Proof.
  intros W I E. unfold converges. cbn [nth_error].
  assert (X : forall s', nth_error tr k = Some s' -> before K start (s :: tr) (S k) e = before K (bat x1) tr k e).
  { intros s' _. destruct k; simpl; [|reflexivity]. rewrite E. symmetry. now apply bat_inside. }
  split; intros (s' & H & C); exists s'; (split; [exact H|]); rewrite (X s' H) in *; exact C.
Qed.

Lemma done_zero x0 x1 f1 c i tr e :
  done_by (bat x0) c (mkSeen i x1 f1 c :: tr) 0 e <-> flags_after x0 x1 f1 c e = true.
Proof.
  unfold done_by, converged_by, flags_after. rewrite <- orb_assoc, orb_true_iff.
  assert (Z := converges_zero x0 (mkSeen i x1 f1 c) tr e). cbn [at_f at_x] in Z. rewrite <- Z. split.
  - intros [H|(j & L & H)]; [now left|]. right. assert (j = 0) by lia. now subst j.
  - intros [H|H]; [now left|]. right. exists 0. auto.
Qed.

Lemma done_next x0 x1 f1 c c' i tr k e : wf x1 -> inside e (sshape x1) -> at_ c' e = flags_after x0 x1 f1 c e ->
  (done_by (bat x0) c (mkSeen i x1 f1 c :: tr) (S k) e <-> done_by (bat x1) c' tr k e).
Proof.
  intros W I V. assert (Z := done_zero x0 x1 f1 c i tr e). rewrite <- V in Z. unfold done_by, converged_by in *. split.
  - intros [H|(j & L & H)]; [left; apply Z; now left|]. destruct j as [|j].
    + left. apply Z. right. exists 0. auto.
    + right. exists j. split; [lia|]. apply (converges_next (bat x0) x1 (mkSeen i x1 f1 c) tr j e W I eq_refl) in H. exact H.
  - intros [H|(j & L & H)].
    + apply Z in H. destruct H as [H|(j & L & H)]; [now left|]. right. exists j. split; [lia|exact H].
    + right. exists (S j). split; [lia|]. apply (converges_next (bat x0) x1 (mkSeen i x1 f1 c) tr j e W I eq_refl). exact H.
Qed.

(** what the history tells at each element *)
Definition loop_link (start : env -> F) (f0 : sarr F) (c : sarr bool) (tr : list (seen F)) (k : nat) (s s' : seen F) : Prop :=
  (exists e, inside e sh /\ ~ done_by start c tr k e) /\
  forall e, inside e sh ->
    (at_ (at_flags s') e = true <-> done_by start c tr k e) /\
    (done_by start c tr k e -> at_ (at_x s') e = at_ (at_x s) e) /\
    (~ done_by start c tr k e ->
       is_zero K (minus K (bat (at_f s) e) (value_before K f0 tr k e)) = false /\
       at_ (at_x s') e = secant_formula K damping (before K start tr k e) (at_ (at_x s) e) (value_before K f0 tr k e) (bat (at_f s) e)).

Lemma secant_loop_spec n : forall i x0 x1 f0 c,
  wf x0 -> fits_in (sshape x0) sh -> wf x1 -> sshape x1 = sh -> wf f0 -> fits_in (sshape f0) sh -> wf c -> sshape c = sh ->
  let tr := fst (secant_loop K absolute less function min_step damping tolerance n i x0 x1 f0 c) in
  length tr <= n /\
  (forall k s, nth_error tr k = Some s -> at_step s = i + k /\ wf (at_x s) /\ sshape (at_x s) = sh /\
     function (at_x s) = Ok (at_f s) /\ wf (at_flags s) /\ sshape (at_flags s) = sh) /\
  (forall s, nth_error tr 0 = Some s -> at_x s = x1 /\ at_flags s = c) /\
  (forall k s s', nth_error tr k = Some s -> nth_error tr (S k) = Some s' ->
     fits_in (sshape (at_f s)) sh /\ loop_link (bat x0) f0 c tr k s s') /\
  match snd (secant_loop K absolute less function min_step damping tolerance n i x0 x1 f0 c) with
  | Ok y => exists init s, tr = init ++ [s] /\ at_x s = y /\ fits_in (sshape (at_f s)) sh /\
              forall e, inside e sh -> done_by (bat x0) c tr (length init) e
  | Err er => keeps_shape function -> same_shape (sshape f0) sh ->
      er = ValueError /\
      (length tr = n \/
       exists init s, tr = init ++ [s] /\ exists e, inside e sh /\ ~ done_by (bat x0) c tr (length init) e /\
         is_zero K (minus K (bat (at_f s) e) (value_before K f0 tr (length init) e)) = true)
  end.
Proof.
  induction n as [|n IH]; intros i x0 x1 f0 c W0 F0 W1 S1 Wf0 Ff0 Wc Sc.
  { simpl. split; [lia|]. split; [intros [|k] s H; discriminate|]. split; [discriminate|].
    split; [intros [|k] s s' H; discriminate|]. auto. }
  cbn [secant_loop]. destruct (function x1) as [f1|er] eqn:Ef.
  2:{ cbn [fst snd]. simpl. split; [lia|]. split; [intros [|k] s H; discriminate|]. split; [discriminate|].
      split; [intros [|k] s s' H; discriminate|]. intros KS. destruct (KS x1 W1) as (y & Ey & _). congruence. }
  assert (Wf1 := Hf x1 f1 W1 Ef).
  destruct (secant_pass K absolute less min_step damping tolerance x0 x1 f0 f1 c) as [r|er] eqn:Ep.
  2:{ cbn [fst snd length]. split; [lia|]. split.
      { intros [|[|k]] s H; try discriminate. injection H as <-. simpl. rewrite Nat.add_0_r. auto 10. }
      split; [intros s H; injection H as <-; auto|].
      split; [intros [|k] s s' H H'; [discriminate|destruct k; discriminate]|].
      intros KS Sf0. destruct (KS x1 W1) as (y & Ey & _ & Sy). rewrite Ef in Ey. injection Ey as <-. rewrite S1 in Sy.
      assert (T := secant_pass_total x0 x1 f0 f1 c W0 F0 W1 S1 Wf0 Sf0 Wf1 Sy Wc Sc). rewrite Ep in T.
      destruct T as (-> & e & I & Fl & Z). split; [reflexivity|]. right. exists [], (mkSeen i x1 f1 c).
      split; [reflexivity|]. exists e. split; [exact I|]. split; [|exact Z].
      rewrite done_zero. rewrite Fl. discriminate. }
  destruct (secant_pass_inv x0 x1 f0 f1 c r W0 F0 W1 S1 Wf0 Ff0 Wf1 Wc Sc Ep) as (Ff1 & R).
  destruct r as [[c' x2]|].
  2:{ cbn [fst snd length]. split; [lia|]. split.
      { intros [|[|k]] s H; try discriminate. injection H as <-. simpl. rewrite Nat.add_0_r. auto 10. }
      split; [intros s H; injection H as <-; auto|].
      split; [intros [|k] s s' H H'; [discriminate|destruct k; discriminate]|].
      exists [], (mkSeen i x1 f1 c). split; [reflexivity|]. split; [reflexivity|]. split; [exact Ff1|].
      intros e I. apply done_zero. now apply R. }
  destruct R as (Ex & Wc' & Sc' & Vc' & W2 & S2 & V2).
  assert (F1 : fits_in (sshape x1) sh) by (rewrite S1; apply fits_refl).
  destruct (IH (S i) x1 x2 f1 c' W1 F1 W2 S2 Wf1 Ff1 Wc' Sc') as (L & P & H0 & Lk & Res). clear IH. cbv zeta in *.
  destruct (secant_loop K absolute less function min_step damping tolerance n (S i) x1 x2 f1 c') as (tr & r) eqn:EL.
  cbn [fst snd] in *.
  assert (DN : forall k e, inside e sh -> done_by (bat x0) c (mkSeen i x1 f1 c :: tr) (S k) e <-> done_by (bat x1) c' tr k e).
  { intros k e I. apply done_next; auto. now rewrite S1. }
  assert (DB : forall k e, inside e sh -> k <= length tr -> before K (bat x0) (mkSeen i x1 f1 c :: tr) (S k) e = before K (bat x1) tr k e).
  { intros k e I _. destruct k; simpl; [|reflexivity]. symmetry. apply bat_inside; [exact W1|now rewrite S1]. }
  assert (DV : forall k e, value_before K f0 (mkSeen i x1 f1 c :: tr) (S k) e = value_before K f1 tr k e).
  { intros k e. destruct k; reflexivity. }
  split; [simpl; lia|]. split; [|split; [|split]].
  - intros [|k] s Hs. { injection Hs as <-. simpl. rewrite Nat.add_0_r. auto 10. }
    destruct (P k s Hs) as (Y & Z). split; [lia|exact Z].
  - intros s Hs. injection Hs as <-. auto.
  - intros [|k] s s' Hs Hs'.
    + injection Hs as <-. cbn [nth_error] in Hs'. destruct (H0 s' Hs') as (Hx & Hc). split; [exact Ff1|]. split.
      { destruct Ex as (e & I & Fl). exists e. split; [exact I|]. rewrite done_zero, Fl. discriminate. }
      intros e I. rewrite Hx, Hc, done_zero, Vc' by exact I. destruct (V2 e I) as (A1 & A2). cbn [at_x at_f]. split; [tauto|].
      split; [exact A1|]. intros Nd. simpl. apply A2. destruct (flags_after x0 x1 f1 c e); [now destruct Nd|reflexivity].
    + cbn [nth_error] in Hs, Hs'. destruct (Lk k s s' Hs Hs') as (Fs & (e0 & I0 & N0) & G). split; [exact Fs|].
      assert (Lk' : k <= length tr) by (assert (nth_error tr k <> None) by congruence; apply nth_error_Some in H; lia).
      split; [exists e0; split; [exact I0|]; now rewrite DN|]. intros e I. rewrite DN, DB, DV by auto. exact (G e I).
  - destruct r as [y|er].
    + destruct Res as (init & s & -> & Hx & Fs & Hd). exists (mkSeen i x1 f1 c :: init), s. split; [reflexivity|].
      split; [exact Hx|]. split; [exact Fs|]. intros e I. cbn [length]. apply DN; [exact I|]. now apply Hd.
    + intros KS Sf0. destruct (KS x1 W1) as (y & Ey & _ & Sy). rewrite Ef in Ey. injection Ey as <-. rewrite S1 in Sy.
      destruct (Res KS Sy) as (-> & [Le|(init & s & -> & e & I & Nd & Z)]); (split; [reflexivity|]).
      * left. simpl. lia.
      * right. exists (mkSeen i x1 f1 c :: init), s. split; [reflexivity|]. exists e. split; [exact I|]. cbn [length].
        rewrite DN, DV by exact I. auto.
Qed.

End Secant.

(** ** The whole function *)

Section RootSecant.
Context {F : Type} (K : arith F) (absolute : F -> F) (less : F -> F -> bool) (ten : F).
Variables (function : sarr F -> res (sarr F)) (min_step guess tolerance : sarr F) (damping : option F) (n : nat).
Hypotheses (Hf : returns_wf function) (Wm : wf min_step) (Wg : wf guess) (Wt : wf tolerance).

Definition start (e : env) : F := minus K (bat guess e) (times K ten (bat min_step e)).

Notation run := (root_secant K absolute less ten function min_step damping guess tolerance n).
Notation t := (single tolerance).

Lemma secant_start_spec x0 x1 f0 c :
  secant_start K ten function min_step guess tolerance = Ok (x0, x1, f0, c) ->
  sshape tolerance = [] /\ wf x0 /\ wf f0 /\ function x0 = Ok f0 /\
  broadcast_shapes [sshape guess; sshape min_step] = Ok (sshape x0) /\
  exists sh, NoDup (dkeys sh) /\ broadcast_shapes [sshape f0; sshape guess; sshape min_step] = Ok sh /\
    fits_in (sshape x0) sh /\ fits_in (sshape f0) sh /\ fits_in (sshape min_step) sh /\
    (forall e, inside e sh -> bat x0 e = start e) /\ broadcast_of guess sh x1 /\
    wf c /\ sshape c = sh /\ forall e, inside e sh -> at_ c e = negb (is_zero K (times K (zero K) (bat f0 e))).
Proof.
  unfold secant_start. intros E.
  destruct (array_ufunc (fun l => times K (nth 0 l (zero K)) (nth 1 l (zero K))) [OpNum ten; OpArr min_step]) as [back|] eqn:Eb; [cbn [bind] in E|discriminate].
  destruct (u2 (zero K) (minus K) guess back) as [x0'|] eqn:E0; [cbn [bind] in E|discriminate].
  destruct (function x0') as [f0'|] eqn:Ef; [cbn [bind] in E|discriminate].
  destruct (sshape tolerance) eqn:St; [|discriminate].
  assert (Ib := Eb). apply array_ufunc_inv in Ib; [|constructor; [exact Logic.I|auto]]. destruct Ib as (Wb & Sb & _).
  unfold op_shapes in Sb. cbn [flat_map app] in Sb. rewrite broadcast_one in Sb by now apply wf_nodup. injection Sb as Sb.
  destruct (u2_inv _ _ _ _ _ Wg Wb E0) as (W0 & S0 & _). rewrite <- Sb in S0.
  assert (Wf0 := Hf x0' f0' W0 Ef).
  unfold shape_broadcasted, op_shapes in E. cbn [flat_map app] in E.
  assert (Nl : Forall (fun s => NoDup (dkeys s)) [sshape f0'; sshape guess; sshape min_step]) by (repeat constructor; now apply wf_nodup).
  destruct (broadcast_shapes [sshape f0'; sshape guess; sshape min_step]) as [sh|] eqn:Esh; [cbn [bind] in E|discriminate].
  assert (N : NoDup (dkeys sh)) by (apply (broadcast_shapes_ok _ _ Nl Esh)).
  assert (Ff : fits_in (sshape f0') sh) by (apply (broadcast_fits _ _ _ Nl Esh); simpl; auto).
  assert (Fg : fits_in (sshape guess) sh) by (apply (broadcast_fits _ _ _ Nl Esh); simpl; auto).
  assert (Fm : fits_in (sshape min_step) sh) by (apply (broadcast_fits _ _ _ Nl Esh); simpl; auto).
  destruct (initial_flags_spec K f0' sh Wf0 N Ff) as (c' & Ec & Wc & Sc & Vc). rewrite Ec in E. cbn [bind] in E.
  destruct (broadcast_of_ok guess sh Wg N Fg) as (x1' & E1 & B1). rewrite E1 in E. cbn [bind] in E. injection E as -> -> -> ->.
  do 4 (split; [assumption || reflexivity|]). split; [exact S0|]. exists sh. split; [exact N|]. split; [exact Esh|].
  destruct (num_reads (zero K) (times K) sh ten min_step _ N (reads_self sh (OpArr min_step) Wm Fm)) as (back' & Eb' & Rb).
  rewrite Eb in Eb'. injection Eb' as <-.
  destruct (u2_reads (zero K) (minus K) sh guess back _ _ N (reads_self sh (OpArr guess) Wg Fg) Rb) as (x0' & E0' & R0).
  rewrite E0 in E0'. injection E0' as <-. destruct R0 as (_ & F0 & V0).
  do 3 (split; [assumption|]). split; [intros e I; exact (V0 e I)|]. auto.
Qed.

Lemma converges_ext st st' l k e ms : st e = st' e ->
  converges K absolute less st t ms l k e <-> converges K absolute less st' t ms l k e.
Proof.
  intros H. unfold converges. assert (X : before K st l k e = before K st' l k e) by (destruct k; [exact H|reflexivity]).
  now rewrite X.
Qed.

Lemma converged_by_ext st st' l k e ms : st e = st' e ->
  converged_by K absolute less st t ms l k e <-> converged_by K absolute less st' t ms l k e.
Proof.
  intros H. unfold converged_by. split; intros (j & L & C); exists j; (split; [exact L|]); now apply (converges_ext st st' l j e ms H).
Qed.

Hypothesis (Fin : finite_values K function).

Lemma done_converged x0 f0 sh c l k e : wf x0 -> wf f0 -> function x0 = Ok f0 -> fits_in (sshape f0) sh -> inside e sh ->
  at_ c e = negb (is_zero K (times K (zero K) (bat f0 e))) -> bat x0 e = start e ->
  (done_by K absolute less min_step tolerance (bat x0) c l k e <-> converged_by K absolute less start t min_step l k e).
Proof.
  intros W0 Wf0 Ef Ff I Vc V0. unfold done_by.
  assert (X : at_ c e = false).
  { rewrite Vc. apply negb_false_iff. unfold bat. apply (Fin x0 f0 W0 Ef). apply clamp_inside; [now apply wf_nodup|]. eapply fits_within; eauto. }
  rewrite X, (converged_by_ext (bat x0) start l k e min_step V0). split; [intros [H|H]; [discriminate|exact H]|now right].
Qed.

Lemma secant_history :
  let tr := fst run in
  length tr <= n /\
  (forall k s, nth_error tr k = Some s -> at_step s = k /\ function (at_x s) = Ok (at_f s)) /\
  (tr <> [] -> exists x0 f0 sh, function x0 = Ok f0 /\
     broadcast_shapes [sshape f0; sshape guess; sshape min_step] = Ok sh /\
     (forall e, inside e sh -> bat x0 e = start e) /\
     (forall s, nth_error tr 0 = Some s -> broadcast_of guess sh (at_x s)) /\
     (forall s, In s tr -> wf (at_x s) /\ sshape (at_x s) = sh /\ wf (at_flags s) /\ sshape (at_flags s) = sh) /\
     forall k s s', nth_error tr k = Some s -> nth_error tr (S k) = Some s' ->
       secant_link K absolute less start t min_step damping f0 sh tr k s s').
Proof.
  unfold root_secant. destruct (secant_start K ten function min_step guess tolerance) as [[[[x0 x1] f0] c]|er] eqn:Es; cbv zeta.
  2:{ simpl. split; [lia|]. split; [intros [|k] s H; discriminate|congruence]. }
  destruct (secant_start_spec _ _ _ _ Es) as (St & W0 & Wf0 & Ef & S0 & sh & N & Esh & F0 & Ff0 & Fm & V0 & B1 & Wc & Sc & Vc).
  destruct B1 as (W1 & S1 & V1).
  destruct (secant_loop_spec K absolute less function min_step tolerance damping sh Hf Wm Wt St N Fm n 0 x0 x1 f0 c W0 F0 W1 S1 Wf0 Ff0 Wc Sc)
    as (L & P & H0 & Lk & _). cbv zeta in *.
  set (tr := fst _) in *. clearbody tr.
  split; [exact L|]. split.
  { intros k s H. destruct (P k s H) as (A1 & _ & _ & A2 & _). auto. }
  intros _. exists x0, f0, sh. split; [exact Ef|]. split; [exact Esh|]. split; [exact V0|]. split.
  { intros s H. destruct (H0 s H) as (-> & _). split; auto. }
  split.
  { intros s H. apply In_nth_error in H. destruct H as (k & H). destruct (P k s H) as (_ & A1 & A2 & _ & A3 & A4). auto. }
  intros k s s' Hs Hs'. destruct (Lk k s s' Hs Hs') as (_ & (e0 & I0 & N0) & G).
  assert (D : forall e, inside e sh -> (done_by K absolute less min_step tolerance (bat x0) c tr k e <-> converged_by K absolute less start t min_step tr k e)).
  { intros e I. apply (done_converged x0 f0 sh); auto. }
  split; [exists e0; split; [exact I0|]; now rewrite <- D|].
  intros e I. rewrite <- D by exact I. destruct (G e I) as (G1 & G2 & G3). split; [exact G1|]. split; [exact G2|].
  replace (before K start tr k e) with (before K (bat x0) tr k e) by (destruct k; [simpl; now apply V0|reflexivity]). exact G3.
Qed.

(** an element that has met a criterion is not modified any more *)
Lemma secant_frozen sh f0 tr k k' s s' e :
  (forall k s s', nth_error tr k = Some s -> nth_error tr (S k) = Some s' ->
       secant_link K absolute less start t min_step damping f0 sh tr k s s') ->
  inside e sh -> converges K absolute less start t min_step tr k e -> k <= k' ->
  nth_error tr k = Some s -> nth_error tr k' = Some s' -> at_ (at_x s') e = at_ (at_x s) e.
Proof.
  intros Lk I C. revert s'. induction k' as [|k' IH]; intros s' Le Hs Hs'.
  - assert (k = 0) by lia. subst k. congruence.
  - destruct (Nat.eq_dec k (S k')) as [-> |D]; [congruence|].
    destruct (nth_error tr k') as [s1|] eqn:H1.
    2:{ apply nth_error_None in H1. assert (X : nth_error tr (S k') <> None) by congruence. apply nth_error_Some in X. lia. }
    rewrite <- (IH s1 ltac:(lia) Hs eq_refl). destruct (Lk k' s1 s' H1 Hs') as (_ & G). apply (G e I).
    exists k. split; [lia|exact C].
Qed.

Lemma secant_returns x : snd run = Ok x ->
  exists init s, fst run = init ++ [s] /\ at_x s = x /\ function x = Ok (at_f s) /\ wf x /\
    forall e, inside e (sshape x) ->
      exists k, converges K absolute less start t min_step (fst run) k e /\
        forall k' s', k <= k' -> nth_error (fst run) k' = Some s' -> at_ (at_x s') e = at_ x e.
Proof.
  intros H. assert (Hist := secant_history). cbv zeta in Hist. destruct Hist as (_ & _ & Hist).
  unfold root_secant in *. destruct (secant_start K ten function min_step guess tolerance) as [[[[x0 x1] f0] c]|er] eqn:Es; [|discriminate].
  destruct (secant_start_spec _ _ _ _ Es) as (St & W0 & Wf0 & Ef & S0 & sh & N & Esh & F0 & Ff0 & Fm & V0 & B1 & Wc & Sc & Vc).
  destruct B1 as (W1 & S1 & V1).
  destruct (secant_loop_spec K absolute less function min_step tolerance damping sh Hf Wm Wt St N Fm n 0 x0 x1 f0 c W0 F0 W1 S1 Wf0 Ff0 Wc Sc)
    as (L & P & H0 & _ & R). cbv zeta in *. rewrite H in R. destruct R as (init & s & E & Hx & _ & Dn).
  set (tr := fst _) in *. clearbody tr.
  assert (Ls : nth_error tr (length init) = Some s).
  { rewrite E, nth_error_app2, Nat.sub_diag; [reflexivity|lia]. }
  destruct (P _ _ Ls) as (_ & Wx & Sx & Efs & _). rewrite Hx in *.
  exists init, s. split; [exact E|]. split; [exact Hx|]. split; [exact Efs|]. split; [exact Wx|].
  destruct Hist as (x0' & f0' & sh' & _ & _ & _ & _ & Al & Lk).
  { rewrite E. now destruct init. }
  assert (Sh : sh' = sh).
  { destruct (Al s) as (_ & A2 & _); [apply (nth_error_In _ _ Ls)|]. rewrite Hx, Sx in A2. now symmetry. }
  subst sh'. intros e I. rewrite Sx in I.
  assert (Cb : converged_by K absolute less start t min_step tr (length init) e).
  { apply (done_converged x0 f0 sh c); auto. }
  destruct Cb as (k & Lek & C). exists k. split; [exact C|]. intros k' s' Lk' Hs'. destruct C as (sk & Hk & C').
  assert (C : converges K absolute less start t min_step tr k e) by (exists sk; auto).
  rewrite (secant_frozen sh f0' tr k k' sk s' e Lk I C Lk' Hk Hs').
  rewrite <- (secant_frozen sh f0' tr k (length init) sk s e Lk I C Lek Hk Ls). now rewrite Hx.
Qed.

Lemma secant_raises er sh0 : keeps_shape function -> sshape tolerance = [] ->
  broadcast_shapes [sshape guess; sshape min_step] = Ok sh0 ->
  snd run = Err er ->
  er = ValueError /\
  (length (fst run) = n \/
   exists init s x0 f0 e, fst run = init ++ [s] /\ function x0 = Ok f0 /\ (forall e, inside e (sshape (at_x s)) -> bat x0 e = start e) /\
     inside e (sshape (at_x s)) /\ ~ converged_by K absolute less start t min_step (fst run) (length init) e /\
     is_zero K (minus K (bat (at_f s) e) (value_before K f0 (fst run) (length init) e)) = true).
Proof.
  intros KS St Eb H. unfold root_secant in *.
  assert (Es : exists p, secant_start K ten function min_step guess tolerance = Ok p).
  { unfold secant_start. rewrite St.
    assert (Nl : Forall (fun s => NoDup (dkeys s)) [sshape guess; sshape min_step]) by (repeat constructor; now apply wf_nodup).
    assert (N0 : NoDup (dkeys sh0)) by (apply (broadcast_shapes_ok _ _ Nl Eb)).
    assert (Fg : fits_in (sshape guess) sh0) by (apply (broadcast_fits _ _ _ Nl Eb); simpl; auto).
    assert (Fm : fits_in (sshape min_step) sh0) by (apply (broadcast_fits _ _ _ Nl Eb); simpl; auto).
    destruct (num_reads (zero K) (times K) sh0 ten min_step _ N0 (reads_self sh0 (OpArr min_step) Wm Fm)) as (back & Ebk & Rb).
    rewrite Ebk. cbn [bind].
    destruct (u2_reads (zero K) (minus K) sh0 guess back _ _ N0 (reads_self sh0 (OpArr guess) Wg Fg) Rb) as (x0 & E0 & R0).
    rewrite E0. cbn [bind]. destruct (KS x0 (proj1 R0)) as (f0 & Ef & Wf0 & Sf0). rewrite Ef. cbn [bind].
    assert (Ff0 : fits_in (sshape f0) sh0).
    { intros ax k Hk. apply Sf0 in Hk. exact (proj1 (proj2 R0) ax k Hk). }
    unfold shape_broadcasted, op_shapes. cbn [flat_map app].
    assert (Nl3 : Forall (fun s => NoDup (dkeys s)) [sshape f0; sshape guess; sshape min_step]) by (repeat constructor; now apply wf_nodup).
    destruct (broadcast_shapes_total _ Nl3) as [(sh & Esh)|Esh].
    - rewrite Esh. cbn [bind]. assert (N : NoDup (dkeys sh)) by (apply (broadcast_shapes_ok _ _ Nl3 Esh)).
      destruct (initial_flags_spec K f0 sh Wf0 N) as (c' & Ec & _); [apply (broadcast_fits _ _ _ Nl3 Esh); simpl; auto|].
      rewrite Ec. cbn [bind].
      destruct (broadcast_of_ok guess sh Wg N) as (x1 & E1 & _); [apply (broadcast_fits _ _ _ Nl3 Esh); simpl; auto|].
      rewrite E1. cbn [bind]. eauto.
    - exfalso. destruct (array_ufunc_reads (fun _ => tt) sh0 [OpArr f0; OpArr guess; OpArr min_step]) as (r & Er & _); auto.
      apply array_ufunc_inv in Er; [|auto]. destruct Er as (_ & Er & _). simpl op_shapes in Er. congruence. }
  destruct Es as ([[[x0 x1] f0] c] & Es). rewrite Es in *.
  destruct (secant_start_spec _ _ _ _ Es) as (_ & W0 & Wf0 & Ef & S0 & sh & N & Esh & F0 & Ff0 & Fm & V0 & B1 & Wc & Sc & Vc).
  destruct B1 as (W1 & S1 & V1).
  assert (Sf0 : same_shape (sshape f0) sh).
  { destruct (KS x0 W0) as (y & Ey & _ & Sy). rewrite Ef in Ey. injection Ey as <-.
    apply same_shape_sym. eapply broadcast_largest; [|exact Esh|now left|].
    - repeat constructor; now apply wf_nodup.
    - assert (Nl : Forall (fun s => NoDup (dkeys s)) [sshape guess; sshape min_step]) by (repeat constructor; now apply wf_nodup).
      assert (SF : forall s, fits_in s (sshape x0) -> fits_in s (sshape f0)).
      { intros s Hs ax k Hk. destruct (Hs ax k Hk) as (m & Hm & C). exists m. split; [now apply Sy|exact C]. }
      intros s [<- |[<- |[<- |[]]]]; [apply fits_refl|apply SF; apply (broadcast_fits _ _ _ Nl S0); simpl; auto|apply SF; apply (broadcast_fits _ _ _ Nl S0); simpl; auto]. }
  destruct (secant_loop_spec K absolute less function min_step tolerance damping sh Hf Wm Wt St N Fm n 0 x0 x1 f0 c W0 F0 W1 S1 Wf0 Ff0 Wc Sc)
    as (L & P & H0 & _ & R). cbv zeta in *. rewrite H in R. destruct (R KS Sf0) as (-> & C). split; [reflexivity|].
  destruct C as [C|(init & s & E & e & I & Nd & Z)]; [now left|]. right. exists init, s, x0, f0, e.
  assert (Sx : sshape (at_x s) = sh).
  { apply (P (length init) s). rewrite E, nth_error_app2, Nat.sub_diag; [reflexivity|lia]. }
  rewrite Sx. split; [exact E|]. split; [exact Ef|]. split; [exact V0|]. split; [exact I|]. split; [|exact Z].
  intros Cb. apply Nd. apply (done_converged x0 f0 sh c); auto.
Qed.

End RootSecant.
