(** Facts about writing into and clipping uncertain arrays. *)
From Coq Require Import String List Arith ZArith Bool Lia.
From Verif Require Import Base BaseFacts Numpy NumpyFacts Shapes Scalar Elementwise Reorder Uncertain UncertainChoice Spec SpecUncertain SpecUncertainChoice
  ShapesFacts AlignFacts ElementwiseFacts SortingFacts AlongFacts UncertainFacts UncertainIndexFacts.
Import ListNotations.
Open Scope nat_scope.
Open Scope list_scope.

Lemma op_fits_shape {A} (o : operand A) t : op_fits o t <-> fits_in (op_shape o) t.
Proof. destruct o; cbn; [tauto|]. split; auto. intros _ ax n []. Qed.

Lemma fits_key {A} (o : operand A) t ax : op_fits o t -> In ax (dkeys (op_shape o)) -> In ax (dkeys t).
Proof.
  intros F H. apply op_fits_shape in F. apply in_map_iff in H as ([k n] & <- & H). destruct (F _ _ H) as (m & Hm & _).
  now apply (in_map fst) in Hm.
Qed.

Theorem u_copyto_spec {A} (truth : option (A -> bool)) (n d : sarr A) (src : uop A) (w : operand bool) :
  let dst := mkU (OpArr n) (OpArr d) in
  u_wf dst -> uop_wf src -> op_wf w ->
  let fits_n := op_fits (nominal_of src) (sshape n) /\ op_fits w (sshape n) in
  let fits_d := op_fits (distribution_of src) (sshape d) /\ op_fits w (sshape d) in
  (fits_n -> fits_d ->
   exists n' d', let r := mkU (OpArr n') (OpArr d') in
     u_copyto truth dst src (Certain w) = (r, None) /\ u_wf r /\ sshape n' = sshape n /\ sshape d' = sshape d /\
     forall wld e, u_inside dst wld e ->
       u_at (Uncertain r) wld e = if op_at w e then u_at src wld e else u_at (Uncertain dst) wld e) /\
  (~ fits_n -> u_copyto truth dst src (Certain w) = (dst, Some ValueError)) /\
  (fits_n -> ~ fits_d ->
   exists n', u_copyto truth dst src (Certain w) = (mkU (OpArr n') (OpArr d), Some ValueError) /\ wf n' /\ sshape n' = sshape n /\
     forall e, at_ n' e = if op_at w e then op_at (nominal_of src) e else at_ n e).
Proof.
  intros dst (Wn & Wd & Wx) Ws Ww fits_n fits_d. cbn [u_nominal u_distribution op_wf op_shape] in Wn, Wd, Wx.
  destruct (copyto_spec n (nominal_of src) w Wn (nominal_wf _ Ws) Ww) as [GN BN].
  destruct (copyto_spec d (distribution_of src) w Wd (distribution_wf _ Ws) Ww) as [GD BD].
  assert (U : u_copyto truth dst src (Certain w) = copy_parts true dst src w w) by (now destruct src).
  rewrite U. unfold copy_parts, dst. cbn [u_nominal u_distribution part_copyto]. split; [|split].
  - intros FN FD. destruct (GN FN) as (n' & En & Wn' & Sn & Vn). destruct (GD FD) as (d' & Ed & Wd' & Sd & Vd).
    rewrite En, Ed. exists n', d'. cbn zeta. split; [reflexivity|].
    split. { split; [exact Wn'|split; [exact Wd'|]]. cbn [u_nominal op_shape]. now rewrite Sn. }
    split; [exact Sn|]. split; [exact Sd|]. destruct FN as [F1 F2].
    assert (OKs : world_ok src). { destruct src as [u|o]; [exact Logic.I|]. cbn. intros C. apply Wx. now apply (fits_key _ _ _ F1). }
    intros [k|] e He; cbn [u_inside u_nominal u_distribution op_shape] in He.
    + rewrite (u_at_distribution src) by auto. cbn [u_at u_distribution op_at]. rewrite !bat_inside by (auto; now rewrite Sd).
      rewrite Vd. rewrite op_at_unseen; auto. intros C. apply Wx. now apply (fits_key _ _ _ F2).
    + rewrite (u_at_nominal src). cbn [u_at u_nominal op_at]. rewrite !bat_inside by (auto; now rewrite Sn). apply Vn.
  - intros FN. now rewrite (BN FN).
  - intros FN FD. destruct (GN FN) as (n' & En & Wn' & Sn & Vn). rewrite En, (BD FD). exists n'. auto.
Qed.

Theorem u_copyto_number {A} (truth : option (A -> bool)) (dst : unc A) (src : uop A) (w : operand bool) :
  (forall x, u_nominal dst = OpNum x -> u_nominal (fst (u_copyto truth dst src (Certain w))) = nominal_of src) /\
  (forall x, u_distribution dst = OpNum x -> snd (u_copyto truth dst src (Certain w)) = None ->
     u_distribution (fst (u_copyto truth dst src (Certain w))) = distribution_of src).
Proof.
  assert (U : u_copyto truth dst src (Certain w) = copy_parts true dst src w w) by (now destruct src).
  rewrite U. unfold copy_parts. split; intros x E.
  - rewrite E. cbn [part_copyto]. now destruct (part_copyto true (u_distribution dst) (distribution_of src) w).
  - rewrite E. cbn [part_copyto]. destruct (part_copyto true (u_nominal dst) (nominal_of src) w) as [n [e|]]; cbn; [discriminate|auto].
Qed.

Theorem u_copyto_mask_ignored {A} (truth : option (A -> bool)) (dst : unc A) (src : uop A) (w w' : unc bool) :
  u_copyto truth dst src (Uncertain w) = u_copyto truth dst src (Uncertain w').
Proof. reflexivity. Qed.

Theorem u_copyto_mask_declined {A} (truth : option (A -> bool)) (dst : unc A) (src : operand A) (w : unc bool) :
  u_copyto truth dst (Certain src) (Uncertain w) = (dst, Some TypeError).
Proof. reflexivity. Qed.

(** ** clip *)

Section Clip.
Context {A : Type} (minimum maximum : A -> A -> A).

Lemma part_clip_spec (a : operand A) (lo hi : option (operand A)) : op_wf a ->
  match lo with Some b => op_wf b | None => True end -> match hi with Some b => op_wf b | None => True end ->
  let ok := (forall b, lo = Some b \/ hi = Some b -> op_fits b (op_shape a)) in
  (ok -> exists r, part_clip minimum maximum a lo hi = Ok r /\ op_wf r /\ op_shape r = op_shape a /\
     forall e, inside e (op_shape r) -> op_at r e =
       let v := match lo with Some b => maximum (op_at a e) (op_at b e) | None => op_at a e end in
       match hi with Some b => minimum v (op_at b e) | None => v end) /\
  (~ ok -> part_clip minimum maximum a lo hi = Err ValueError).
Proof.
  intros Wa Wl Wh ok. destruct (clip_spec minimum maximum a lo hi None Wa Wl Wh Logic.I) as [G B]. cbn zeta in G, B.
  assert (OK : ok <-> op_fits a (op_shape a) /\ match lo with Some b => op_fits b (op_shape a) | None => True end /\
                      match hi with Some b => op_fits b (op_shape a) | None => True end).
  { unfold ok. split.
    - intros H. split; [apply op_fits_shape; intros ax n Hn; exists n; auto|]. split; [destruct lo|destruct hi]; auto.
    - intros (_ & H1 & H2) b [-> | ->]; auto. }
  unfold part_clip. split; intros H.
  - destruct (G (proj1 OK H)) as (r & Er & Wr & Sr & Vr). rewrite Er. cbn [bind].
    assert (GG : exists r0, Ok (OpArr r) = Ok r0 /\ op_wf r0 /\ op_shape r0 = op_shape a /\
     forall e, inside e (op_shape r0) -> op_at r0 e =
       let v := match lo with Some b => maximum (op_at a e) (op_at b e) | None => op_at a e end in
       match hi with Some b => minimum v (op_at b e) | None => v end).
    { exists (OpArr r). split; [reflexivity|]. split; [exact Wr|]. split; [exact Sr|]. intros e He. cbn [op_at].
      rewrite bat_inside by auto. apply Vr. }
    destruct a as [a|x]; [exact GG|]. destruct lo as [[l|l]|], hi as [[h|h]|]; try exact GG; cbn [andb];
      (eexists; split; [reflexivity|]; split; [exact Logic.I|]; split; [reflexivity|]; intros e _;
       specialize (Vr e); cbn zeta in *; cbn [op_at] in *; rewrite <- Vr; unfold at_;
       assert (Ar : s_axes r = []) by (rewrite <- (wf_keys r Wr), Sr; reflexivity); now rewrite Ar).
  - rewrite (B (fun K => H (proj2 OK K))). destruct a, lo as [[]|], hi as [[]|]; reflexivity.
Qed.

Lemma as_unc_ok (x : uop A) : uop_wf x -> sample_free x ->
  exists u, as_unc x = Ok u /\ u_wf u /\ u_nominal u = nominal_of x /\ u_distribution u = distribution_of x.
Proof.
  destruct x as [u|o]; cbn; intros W F; [exists u; auto|]. exists (mkU o o). split; [now apply mk_unc_intro|]. repeat split; auto.
Qed.

Lemma as_unc_named (x : uop A) : ~ sample_free x -> as_unc x = Err ValueError.
Proof.
  destruct x as [u|o]; cbn; intros F; [now destruct F|]. unfold mk_unc.
  destruct (dmem (match o with OpArr a => sshape a | OpNum _ => [] end) axis_distribution) eqn:D; auto. destruct F. intros C.
  unfold dmem in D. destruct o as [a|x]; [|destruct C]. cbn [op_shape] in C.
  destruct (dget (sshape a) axis_distribution) eqn:E; [discriminate|]. apply dget_None in E. contradiction.
Qed.

Definition bound_ok (x : option (uop A)) : Prop := match x with Some x => uop_wf x /\ sample_free x | None => True end.

Lemma as_bound_ok (x : option (uop A)) : bound_ok x ->
  exists b, as_bound x = Ok b /\ option_map u_nominal b = option_map nominal_of x /\ option_map u_distribution b = option_map distribution_of x.
Proof.
  destruct x as [x|]; cbn; [|intros _; now exists None]. intros [W F]. destruct (as_unc_ok x W F) as (u & E & _ & N & D). rewrite E. cbn [bind].
  exists (Some u). cbn. now rewrite N, D.
Qed.

Theorem u_clip_spec (a : uop A) (lo hi : option (uop A)) :
  uop_wf a -> sample_free a ->
  match lo with Some b => uop_wf b /\ sample_free b | None => True end ->
  match hi with Some b => uop_wf b /\ sample_free b | None => True end ->
  let ok := forall b, lo = Some b \/ hi = Some b -> u_fits b a in
  (ok -> exists r, u_clip minimum maximum a lo hi = Ok r /\ u_wf r /\
     op_shape (u_nominal r) = op_shape (nominal_of a) /\ op_shape (u_distribution r) = op_shape (distribution_of a) /\
     forall w e, u_inside r w e -> u_at (Uncertain r) w e =
       let v := match lo with Some b => maximum (u_at a w e) (u_at b w e) | None => u_at a w e end in
       match hi with Some b => minimum v (u_at b w e) | None => v end) /\
  (~ ok -> u_clip minimum maximum a lo hi = Err ValueError).
Proof.
  intros Wa Fa Bl Bh ok. destruct (as_unc_ok a Wa Fa) as (u & Eu & (Wn & Wd & Wx) & Nu & Du).
  destruct (as_bound_ok lo Bl) as (l & El & Nl & Dl). destruct (as_bound_ok hi Bh) as (h & Eh & Nh & Dh).
  unfold u_clip. rewrite Eu. cbn [bind]. rewrite El. cbn [bind]. rewrite Eh. cbn [bind]. rewrite Nl, Nh, Dl, Dh.
  rewrite Nu in Wn, Wx. rewrite Du in Wd. rewrite Nu, Du.
  assert (Q : forall (part : uop A -> operand A) (x : option (uop A)), (forall y, uop_wf y -> op_wf (part y)) -> bound_ok x ->
            match option_map part x with Some b => op_wf b | None => True end).
  { intros part [x|] P B; cbn; auto. apply P. apply B. }
  destruct (part_clip_spec (nominal_of a) (option_map nominal_of lo) (option_map nominal_of hi) Wn) as [GN BN];
    [apply Q; auto using nominal_wf..|].
  destruct (part_clip_spec (distribution_of a) (option_map distribution_of lo) (option_map distribution_of hi) Wd) as [GD BD];
    [apply Q; auto using distribution_wf..|]. cbn zeta in GN, BN, GD, BD.
  set (okn := forall b, option_map nominal_of lo = Some b \/ option_map nominal_of hi = Some b -> op_fits b (op_shape (nominal_of a))) in *.
  set (okd := forall b, option_map distribution_of lo = Some b \/ option_map distribution_of hi = Some b -> op_fits b (op_shape (distribution_of a))) in *.
  assert (K : ok <-> okn /\ okd).
  { unfold ok, okn, okd, u_fits. split.
    - intros H. split; intros b C;
        (destruct C as [C|C]; [destruct lo as [x|]|destruct hi as [x|]]; try discriminate; injection C as <-; apply op_fits_shape; apply H; auto).
    - intros [H1 H2] b C. split; apply op_fits_shape; [apply H1|apply H2]; destruct C as [-> | ->]; auto. }
  split.
  - intros H. destruct (proj1 K H) as [Hn Hd]. destruct (GN Hn) as (n & En & Wrn & Sn & Vn). destruct (GD Hd) as (d & Ed & Wrd & Sd & Vd).
    rewrite En. cbn [bind]. rewrite Ed. cbn [bind]. exists (mkU n d).
    assert (Xn : ~ In axis_distribution (dkeys (op_shape n))) by (now rewrite Sn).
    split; [now apply mk_unc_intro|]. split; [split; auto|]. split; [exact Sn|]. split; [exact Sd|].
    intros [k|] e He; cbn [u_inside u_nominal u_distribution] in He.
    + cbn [u_at u_distribution]. rewrite Vd by exact He. cbn zeta.
      assert (T : forall x : uop A, uop_wf x -> sample_free x -> u_at x (Some k) e = op_at (distribution_of x) (set_env e axis_distribution k)).
      { intros x Wx0 Fx. now apply u_at_distribution. }
      rewrite (T a) by auto. destruct lo as [x|], hi as [y|]; cbn [option_map]; try (rewrite (T x) by apply Bl); try (rewrite (T y) by apply Bh); reflexivity.
    + cbn [u_at u_nominal]. rewrite Vn by exact He. cbn zeta. rewrite u_at_nominal.
      destruct lo as [x|], hi as [y|]; cbn [option_map]; try rewrite (u_at_nominal x); try rewrite (u_at_nominal y); reflexivity.
  - intros H. destruct (part_clip minimum maximum (nominal_of a) (option_map nominal_of lo) (option_map nominal_of hi)) as [n|e] eqn:En; cbn [bind].
    + rewrite BD; [reflexivity|]. intros Hd. assert (~ okn) by (intros Hn; apply H, K; auto). apply BN in H0. congruence.
    + assert (Z : ~ okn) by (intros Hn; destruct (GN Hn) as (r & E & _); congruence). apply BN in Z. congruence.
Qed.

Theorem u_clip_named (a : uop A) (lo hi : option (uop A)) : ~ sample_free a -> u_clip minimum maximum a lo hi = Err ValueError.
Proof. intros H. unfold u_clip. now rewrite as_unc_named. Qed.

(** an uncertain bound of a certain array *)
Theorem u_clip_certain (a : operand A) (b : unc A) (hi : option (uop A)) :
  op_wf a -> ~ In axis_distribution (dkeys (op_shape a)) -> u_wf b -> In axis_distribution (dkeys (op_shape (u_distribution b))) ->
  match hi with Some b => uop_wf b /\ sample_free b | None => True end ->
  u_clip minimum maximum (Certain a) (Some (Uncertain b)) hi = Err ValueError.
Proof.
  intros Wa Fa Wb Hb Wh. apply (proj2 (u_clip_spec (Certain a) (Some (Uncertain b)) hi Wa Fa (conj Wb Logic.I) Wh)).
  intros K. destruct (K (Uncertain b) (or_introl eq_refl)) as [_ F]. apply Fa. apply (fits_key (u_distribution b)); auto. now apply op_fits_shape.
Qed.
End Clip.
