(** Facts about the Fourier transforms of uncertain scalars. *)
From Coq Require Import String List Arith ZArith Bool Lia.
From Verif Require Import Base BaseFacts Numpy NumpyFacts Shapes Scalar Elementwise Reorder Along Sorting Fourier Uncertain UncertainChoice UncertainAlong UncertainJoin UncertainFourier
  Spec SpecFilter SpecVectorReduce SpecFourier SpecUncertain SpecUncertainChoice SpecUncertainAlong SpecUncertainEqual SpecUncertainJoin
  ShapesFacts AlignFacts ElementwiseFacts ReduceFacts SortingFacts AlongFacts RankdataFacts VectorIndexFacts OptimizeFacts MatrixFacts PdfFacts FuncFacts VectorReduceFacts
  UncertainFacts UncertainIndexFacts UncertainFilterFacts UncertainChoiceFacts UncertainReorderFacts UncertainAlongFacts UncertainEqualFacts UncertainJoinFacts FourierFacts VectorFourierFacts.
Import ListNotations.
Open Scope nat_scope.
Open Scope list_scope.

Lemma parts_fit {A} (u : unc A) sh w : u_wf u -> u_shape u = Ok sh -> fits_in (op_shape (u_part u w)) (full_shape w (Uncertain u, sh)).
Proof.
  intros W H. pose proof W as (Wn & Wd & Wx). destruct (u_shape_ok u sh W H) as (sd & E & Nd & _ & P & Fn & Fd & _).
  destruct w as [k|]; cbn [full_shape u_part fst snd]; intros ax n Hn.
  - destruct (Fd ax n Hn) as (m & Hm & D). exists m. split; auto. apply in_app_iff.
    destruct (string_dec ax axis_distribution) as [Ex|Nx]; [|left; apply P; auto].
    right. change (In (ax, m) (samples u)). apply samples_in; auto. split; auto. destruct D as [-> | ->]; auto.
    destruct (broadcast_attained _ _ ax m (op_shapes_nodup [u_nominal u; u_distribution u] ltac:(auto)) E Hm) as (s & Hs & Hq).
    apply in_flat_map in Hs as (o & Ho & Hs). destruct Ho as [<- |[<- |[]]].
    + destruct (u_nominal u); cbn in Hs; [|contradiction]. destruct Hs as [<- |[]]. destruct Wx. rewrite <- Ex. now apply (in_map fst) in Hq.
    + destruct (u_distribution u); cbn in Hs; [|contradiction]. destruct Hs as [<- |[]]. exact Hq.
  - destruct (Fn ax n Hn) as (m & Hm & D). exists m. split; auto.
    apply P. split; auto. intros Ex. apply Wx. rewrite <- Ex. now apply (in_map fst) in Hn.
Qed.

Lemma world_shape_nodup {A} (u : unc A) sh w : u_wf u -> u_shape u = Ok sh ->
  NoDup (dkeys (full_shape w (Uncertain u, sh))) /\ incl (dkeys sh) (dkeys (full_shape w (Uncertain u, sh))).
Proof.
  intros W H. split; [now apply (full_nodup (Uncertain u, sh) w)|]. destruct w; cbn [full_shape snd]; [|apply incl_refl].
  unfold dkeys. rewrite map_app. now apply incl_appl, incl_refl.
Qed.

Lemma broadcast_spread {A} (S : list string) (o : operand A) (T sh : shape) : op_wf o -> NoDup (dkeys T) -> NoDup (dkeys sh) ->
  fits_in (op_shape o) T -> incl sh T -> incl S (dkeys sh) ->
  exists shc a, broadcast_shapes [sshape (normalize o); base_of sh S] = Ok shc /\ na_broadcast_to (normalize o) shc false = Ok a /\
    VectorFourierFacts.spread S o T a.
Proof.
  intros Wo NT Ns Fo I IS. destruct (base_spec sh S Ns) as (Nb & Hb).
  assert (No := op_shape_nodup o Wo). assert (Fb : fits_in (base_of sh S) T) by (intros ax n H; exists n; split; [apply I, Hb, H|auto]).
  assert (Nl : Forall (fun s => NoDup (dkeys s)) [op_shape o; base_of sh S]) by auto.
  rewrite ElementwiseFacts.normalize_shape.
  destruct (PdfFacts.fits_broadcast [op_shape o; base_of sh S] T Nl NT) as (shc & Ec & Fc); [intros s [<- |[<- |[]]]; auto|].
  destruct (broadcast_joint _ _ Nl Ec) as (Nc & Fi & At).
  assert (Fo' : fits_in (op_shape o) shc) by (apply Fi; now left).
  destruct (broadcast_normalized o shc Wo Nc Fo') as (a & Ea & Wa & Sa & Va).
  exists shc, a. split; [exact Ec|]. split; [exact Ea|]. split; [exact Wa|]. rewrite Sa. split; [exact Fc|]. split; [|split; [|split]].
  - intros ax n HS HT. assert (K := IS ax HS). apply key_size in K as [m K]. assert (m = n) as ->.
    { assert (X := dget_NoDup _ _ _ NT (I _ K)). rewrite (dget_NoDup _ _ _ NT HT) in X. congruence. }
    assert (B : In (ax, n) (base_of sh S)) by (apply Hb; auto). destruct (Fi (base_of sh S) ltac:(right; now left) ax n B) as (q & Hq & D).
    destruct D as [-> | <-]; [|exact Hq]. destruct (Fc ax q Hq) as (m & Hm & D). apply (dget_NoDup _ _ _ NT) in Hm, HT.
    assert (m = 1) as -> by congruence. destruct D; subst; exact Hq.
  - intros ax H. apply key_size in H as [n H]. destruct (Fo' ax n H) as (m & Hm & _). now apply (in_map fst) in Hm.
  - intros ax n H. destruct (Fo' ax n H) as (m & Hm & [-> | <-]); auto.
  - apply clamped; auto. now rewrite Sa.
Qed.

Lemma transformed_parts {A} (S : list string) (leaf : sarr A -> res (sarr A)) (u : unc A) sh : u_wf u -> u_shape u = Ok sh ->
  (~ incl S (dkeys sh) -> u_transformed S leaf u = Err ValueError) /\
  (incl S (dkeys sh) -> exists a b, VectorFourierFacts.spread S (u_nominal u) (full_shape None (Uncertain u, sh)) a /\
     VectorFourierFacts.spread S (u_distribution u) (full_shape (Some 0) (Uncertain u, sh)) b /\
     u_transformed S leaf u = (n <- leaf a ;; d <- leaf b ;; mk_unc (OpArr n) (OpArr d))).
Proof.
  intros W H. destruct (broadcast_parts u sh W H) as (Ns & _). pose proof W as (Wn & Wd & _). unfold u_transformed. rewrite H. cbn [bind]. split.
  - intros N. destruct (forallb (fun ax => smem ax (dkeys sh)) S) eqn:X; [|reflexivity]. exfalso. apply N. intros ax Hax. rewrite forallb_forall in X. now apply smem_In, X.
  - intros I. replace (negb (forallb (fun ax => smem ax (dkeys sh)) S)) with false
      by (symmetry; apply negb_false_iff, forallb_forall; intros ax Hax; apply smem_In; now apply I).
    cbn zeta. cbn match. fold (base_of sh S).
    destruct (world_shape_nodup u sh None W H) as (Nn & _). destruct (world_shape_nodup u sh (Some 0) W H) as (Nd & _).
    destruct (broadcast_spread S (u_nominal u) _ sh Wn Nn Ns (parts_fit u sh None W H) (incl_refl _) I) as (shn & a & E1 & E2 & Sa).
    destruct (broadcast_spread S (u_distribution u) _ sh Wd Nd Ns (parts_fit u sh (Some 0) W H) ltac:(intros q Hq; apply in_app_iff; now left) I) as (shd & b & E3 & E4 & Sb).
    exists a, b. split; [exact Sa|]. split; [exact Sb|]. match goal with |- context [broadcast_shapes ?l] => replace (broadcast_shapes l) with (Ok shn) by (symmetry; exact E1) end. cbn [bind]. rewrite E2. cbn [bind]. match goal with |- context [broadcast_shapes ?l] => replace (broadcast_shapes l) with (Ok shd) by (symmetry; exact E3) end. cbn [bind]. now rewrite E4.
Qed.

Theorem u_fft_spec {A} (zero : A) (t : transform A) (u : unc A) sh x y m (n : option nat) : u_wf u -> u_shape u = Ok sh -> In (x, m) sh ->
  let k := match n with Some n => n | None => t_default t m end in
  k <> 0 -> (y = x \/ ~ In y (dkeys sh)) -> y <> axis_distribution ->
  exists rn rd, let r := mkU (OpArr rn) (OpArr rd) in
    u_fft zero t u (x, y) n = Ok r /\ u_wf r /\
    forall w, let T := map (fun kv => if String.eqb (fst kv) x then (y, t_out t k) else kv) (full_shape w (Uncertain u, sh)) in
      In (y, t_out t k) (op_shape (u_part r w)) /\ fits_in (op_shape (u_part r w)) T /\
      forall e, inside (in_world w e) T ->
        u_at (Uncertain r) w e = t_value t k (padded zero (t_in t k) (u_run (Uncertain u) w x m e)) (e y).
Proof.
  intros W H Hx k K Hy Ny. destruct (broadcast_parts u sh W H) as (Ns & Xs & _). pose proof W as (Wn & Wd & _).
  assert (Kx : In x (dkeys sh)) by (now apply (in_map fst) in Hx). assert (Nx : x <> axis_distribution) by (intros ->; contradiction).
  destruct (proj2 (transformed_parts [x] (fun a => na_fft zero t a (x, y) n) u sh W H)) as (a & b & Sa & Sb & E); [intros z [<- |[]]; exact Kx|].
  unfold u_fft. cbn [fst]. rewrite E. clear E.
  assert (Part : forall w c, VectorFourierFacts.spread [x] (u_part u w) (full_shape w (Uncertain u, sh)) c ->
    exists r, na_fft zero t c (x, y) n = Ok r /\ wf r /\ let T := map (fun kv => if String.eqb (fst kv) x then (y, t_out t k) else kv) (full_shape w (Uncertain u, sh)) in
      In (y, t_out t k) (sshape r) /\ fits_in (sshape r) T /\
      forall e, inside (in_world w e) T -> bat r (in_world w e) = t_value t k (padded zero (t_in t k) (u_run (Uncertain u) w x m e)) (e y)).
  { intros w c Sp. destruct (world_shape_nodup u sh w W H) as (NT & IT). set (T := full_shape w (Uncertain u, sh)) in *.
    assert (HT : In (x, m) T) by (unfold T; destruct w; cbn [full_shape snd]; [apply in_app_iff; now left|exact Hx]).
    assert (YT : y = x \/ ~ In y (dkeys T)).
    { destruct Hy as [Hy|Hy]; [now left|right]. intros Q. apply dget_None in Hy. apply key_size in Q as [q Q]. apply (dget_NoDup _ _ _ NT) in Q. unfold T in Q.
      rewrite (full_axis (Uncertain u, sh) w y (or_intror Ny)) in Q. cbn [snd] in Q. congruence. }
    pose proof Sp as (Wc & Fc & Cc & _).
    destruct (fft_ok zero t c x y m n Wc) as (r & Er & Wr & Sr & Vr).
    - apply Cc; [now left|exact HT].
    - exact K.
    - destruct YT as [Q|Q]; [now left|right]. rewrite <- (wf_keys c Wc). intros Z. apply Q. apply key_size in Z as [q Z]. destruct (Fc y q Z) as (q' & Hq & _). now apply (in_map fst) in Hq.
    - exists r. split; [exact Er|]. split; [exact Wr|]. cbn zeta. fold k in Sr, Vr.
      destruct (spread_value zero [(x, y)] [(t, (x, k))] (u_part u w) T c r NT) as (Fb & Cb & Q).
      { destruct w; assumption. }
      { intros z [<- |[]]. now apply IT. }
      { now apply nodup_one. }
      { intros z. cbn. tauto. }
      { exact Sp. }
      { exact Wr. }
      { now rewrite named_one. }
      { intros e. rewrite Vr. cbn [spectra]. unfold spectrum, line. rewrite renamed_one, String.eqb_refl. f_equal. f_equal. apply map_ext. intros i.
        apply AlongFacts.at_ext. intros ax _. unfold set_env. destruct (String.eqb_spec ax x) as [|D]; [reflexivity|]. rewrite renamed_one.
        destruct (String.eqb_spec ax x); [contradiction|reflexivity]. }
      rewrite named_one in Fb, Q. split.
      { assert (Z := Cb x (t_out t k) (or_introl eq_refl)). rewrite renamed_one, String.eqb_refl in Z. apply Z. cbn [spectra_shape].
        apply DerivedFacts.in_resized. exists m. now rewrite String.eqb_refl. }
      split; [exact Fb|]. intros e He. rewrite (Q _ He). cbn [spectra]. unfold spectrum. rewrite renamed_one, String.eqb_refl, (size_in T x m NT HT).
      replace (in_world w e y) with (e y).
      2:{ destruct w; cbn [in_world]; auto. unfold set_env. destruct (String.eqb_spec y axis_distribution); [contradiction|reflexivity]. }
      f_equal. f_equal. unfold u_run. apply map_ext. intros i. rewrite u_at_part. apply ReduceFacts.op_at_respects. intros ax. rewrite <- (world_swap w e x i Nx).
      unfold set_env. destruct (String.eqb_spec ax x) as [|D]; [reflexivity|]. rewrite renamed_one.
      destruct (String.eqb_spec ax x); [contradiction|reflexivity]. }
  destruct (Part None a Sa) as (rn & En & Wrn & Hn & Fn & Vn). destruct (Part (Some 0) b Sb) as (rd & Ed & Wrd & Hd & Fd & Vd).
  rewrite En. cbn [bind]. rewrite Ed. cbn [bind].
  assert (Xn : ~ In axis_distribution (dkeys (op_shape (OpArr rn)))).
  { cbn [op_shape]. intros Q. apply key_size in Q as [q Q]. destruct (Fn _ _ Q) as (q' & Hq & _). apply in_map_iff in Hq as ([z v] & Ez & Hz). cbn [fst full_shape snd] in *.
    destruct (String.eqb_spec z x); [injection Ez as Ez _; contradiction|]. injection Ez as -> _. apply Xs. now apply (in_map fst) in Hz. }
  exists rn, rd. cbn zeta. split; [now apply mk_unc_intro|]. split; [split; [exact Wrn|split; [exact Wrd|exact Xn]]|].
  intros [w|].
  - destruct (Part (Some w) b Sb) as (rd' & Ed' & _ & Hd' & Fd' & Vd'). rewrite Ed in Ed'. injection Ed' as <-. split; [exact Hd'|]. split; [exact Fd'|]. exact Vd'.
  - split; [exact Hn|]. split; [exact Fn|]. exact Vn.
Qed.

Theorem u_fft_refused {A} (zero : A) (t : transform A) (u : unc A) sh x y (n : option nat) : u_wf u -> u_shape u = Ok sh ->
  ~ In x (dkeys sh) \/
  (exists m, In (x, m) sh /\ match n with Some n => n | None => t_default t m end = 0) \/
  (y <> x /\ In y (dkeys sh)) \/ y = axis_distribution ->
  u_fft zero t u (x, y) n = Err ValueError.
Proof.
  intros W H C. destruct (broadcast_parts u sh W H) as (Ns & Xs & _). destruct (transformed_parts [x] (fun a => na_fft zero t a (x, y) n) u sh W H) as (Bad & Good).
  unfold u_fft. cbn [fst]. destruct (in_dec string_dec x (dkeys sh)) as [Kx|Kx]; [|apply Bad; intros Q; apply Kx, Q; now left].
  destruct Good as (a & b & Sa & Sb & ->); [intros z [<- |[]]; exact Kx|]. apply key_size in Kx as [m Hx].
  assert (Cases : forall w c, VectorFourierFacts.spread [x] (u_part u w) (full_shape w (Uncertain u, sh)) c ->
    na_fft zero t c (x, y) n = Err ValueError \/
    (exists r, na_fft zero t c (x, y) n = Ok r /\ match n with Some n => n | None => t_default t m end <> 0 /\ (y = x \/ ~ In y (s_axes c)) /\ In (y, t_out t (match n with Some n => n | None => t_default t m end)) (sshape r))).
  { intros w c (Wc & _ & Cc & _).
    assert (Hc : In (x, m) (sshape c)) by (apply Cc; [now left|destruct w; cbn [full_shape snd]; [apply in_app_iff; now left|exact Hx]]).
    destruct (Nat.eq_dec (match n with Some n => n | None => t_default t m end) 0) as [Z|Z]; [left; apply fft_refused; auto; right; left; eauto|].
    destruct (string_dec y x) as [D|D]; [|destruct (in_dec string_dec y (s_axes c)) as [Y|Y]; [left; apply fft_refused; auto|]].
    - right. destruct (fft_ok zero t c x y m n Wc Hc Z (or_introl D)) as (r & Er & _ & Sr & _). exists r. split; [exact Er|]. split; [exact Z|]. split; [now left|].
      rewrite Sr. apply in_map_iff. exists (x, m). cbn [fst]. now rewrite String.eqb_refl.
    - right. destruct (fft_ok zero t c x y m n Wc Hc Z (or_intror Y)) as (r & Er & _ & Sr & _). exists r. split; [exact Er|]. split; [exact Z|]. split; [now right|].
      rewrite Sr. apply in_map_iff. exists (x, m). cbn [fst]. now rewrite String.eqb_refl. }
  destruct (Cases None a Sa) as [-> |(rn & -> & Zn & Yn & In_)]; [reflexivity|]. cbn [bind].
  destruct (Cases (Some 0) b Sb) as [-> |(rd & -> & Zd & Yd & Id)]; [reflexivity|]. cbn [bind].
  destruct C as [C|[(m' & Hm & C)|[(D & Hy)|C]]].
  - destruct C. now apply (in_map fst) in Hx.
  - exfalso. apply Zn. apply (dget_NoDup _ _ _ Ns) in Hm, Hx. assert (m' = m) as -> by congruence. exact C.
  - exfalso. destruct Yn as [Yn|Yn]; [contradiction|]. destruct Yd as [Yd|Yd]; [contradiction|].
    destruct (u_shape_ok u sh W H) as (sd & E & _ & _ & P & _ & _ & _). apply key_size in Hy as [q Hy]. apply P in Hy as [Hy _].
    pose proof W as (Wn & Wd & _).
    destruct (broadcast_attained _ _ y q (op_shapes_nodup [u_nominal u; u_distribution u] ltac:(auto)) E Hy) as (s & Hs & Hq).
    apply in_flat_map in Hs as (o & Ho & Hs). destruct Sa as (Wa & _ & _ & Ka & _). destruct Sb as (Wb & _ & _ & Kb & _).
    cbn [u_part] in Ka, Kb. rewrite <- (wf_keys a Wa) in Yn. rewrite <- (wf_keys b Wb) in Yd.
    destruct Ho as [<- |[<- |[]]].
    + apply Yn, Ka. destruct (u_nominal u); cbn in Hs; [|contradiction]. destruct Hs as [<- |[]]. now apply (in_map fst) in Hq.
    + apply Yd, Kb. destruct (u_distribution u); cbn in Hs; [|contradiction]. destruct Hs as [<- |[]]. now apply (in_map fst) in Hq.
  - unfold mk_unc. rewrite C in In_. apply (in_map fst) in In_. cbn [fst] in In_.
    destruct (dmem (sshape rn) axis_distribution) eqn:Dm; [reflexivity|]. exfalso. unfold dmem in Dm. destruct (dget (sshape rn) axis_distribution) eqn:Dg; [discriminate|].
    apply dget_None in Dg. contradiction.
Qed.

Lemma in_stage_axes {A} (w : ntransform A) (k : string -> nat) (l : list string) st : stages w (map (fun ax => (ax, k ax)) l) st ->
  forall x, In x (stage_axes st) <-> In x l.
Proof.
  intros Hst x. assert (Q : In x (map fst (map (fun ax => (ax, k ax)) l)) <-> In x (stage_axes st)).
  { unfold stage_axes. generalize dependent (map (fun ax => (ax, k ax)) l). intros l' Hst.
    inversion Hst; subst; cbn [map fst snd]; rewrite ?map_app; cbn [map fst snd]; rewrite ?map_map; cbn [snd]; rewrite ?in_app_iff; cbn [In].
    - rewrite !in_map_iff. setoid_rewrite <- in_rev. reflexivity.
    - rewrite !in_map_iff. setoid_rewrite <- in_rev. tauto.
    - rewrite !in_map_iff. tauto. }
  rewrite <- Q, map_map. cbn [fst]. now rewrite map_id.
Qed.

Theorem u_fftn_spec {A} (zero : A) (t : ntransform A) (u : unc A) sh (axes : dict string) (s : option (dict nat)) (k : string -> nat) (st : list (stage A)) :
  u_wf u -> u_shape u = Ok sh ->
  NoDup (dkeys axes) -> incl (dkeys axes) (dkeys sh) -> NoDup (map (renamed axes) (axis_distribution :: dkeys sh)) ->
  (forall ax, In ax (dkeys axes) -> k ax <> 0 /\ match s with Some s => dget s ax = Some (k ax) | None => In (ax, k ax) sh end) ->
  (forall d ax, s = Some d -> In ax (dkeys d) -> In ax (dkeys axes)) ->
  stages t (map (fun ax => (ax, k ax)) (dkeys axes)) st ->
  exists rn rd, let r := mkU (OpArr rn) (OpArr rd) in
    u_fftn zero t u axes s = Ok r /\ u_wf r /\
    forall w, let T := full_shape w (Uncertain u, sh) in
      (forall x n, In x (dkeys axes) -> In (x, n) (spectra_shape st T) -> In (renamed axes x, n) (op_shape (u_part r w))) /\
      fits_in (op_shape (u_part r w)) (map (fun kv => (renamed axes (fst kv), snd kv)) (spectra_shape st T)) /\
      forall e, inside (in_world w e) (map (fun kv => (renamed axes (fst kv), snd kv)) (spectra_shape st T)) ->
        u_at (Uncertain r) w e = spectra zero st T (u_at (Uncertain u) w) (fun ax => e (renamed axes ax)).
Proof.
  intros W H Nx I Nr Hk Hs Hst. destruct (broadcast_parts u sh W H) as (Ns & Xs & _). pose proof W as (Wn & Wd & _).
  destruct (proj2 (transformed_parts (dkeys axes) (fun a => na_fftn zero t a axes s) u sh W H) I) as (a & b & Sa & Sb & E).
  unfold u_fftn. rewrite E. clear E. assert (Axs := in_stage_axes t k (dkeys axes) st Hst).
  assert (Xr : renamed axes axis_distribution = axis_distribution) by (apply renamed_out; intros Q; apply Xs; now apply I).
  assert (Part : forall w c, VectorFourierFacts.spread (dkeys axes) (u_part u w) (full_shape w (Uncertain u, sh)) c ->
    exists r, na_fftn zero t c axes s = Ok r /\ wf r /\ let T := full_shape w (Uncertain u, sh) in
      (forall x n, In x (dkeys axes) -> In (x, n) (spectra_shape st T) -> In (renamed axes x, n) (sshape r)) /\
      fits_in (sshape r) (map (fun kv => (renamed axes (fst kv), snd kv)) (spectra_shape st T)) /\
      forall e, inside (in_world w e) (map (fun kv => (renamed axes (fst kv), snd kv)) (spectra_shape st T)) ->
        bat r (in_world w e) = spectra zero st T (u_at (Uncertain u) w) (fun ax => e (renamed axes ax))).
  { intros w c Sp. destruct (world_shape_nodup u sh w W H) as (NT & IT). set (T := full_shape w (Uncertain u, sh)) in *.
    assert (IT' : incl sh T) by (unfold T; destruct w; cbn [full_shape snd]; [now apply incl_appl, incl_refl|apply incl_refl]).
    assert (KT : incl (dkeys T) (axis_distribution :: dkeys sh)).
    { intros x Hx. destruct (string_dec axis_distribution x) as [Ex|Nx']; [now left|right]. apply key_size in Hx as [q Hx]. apply (dget_NoDup _ _ _ NT) in Hx. unfold T in Hx.
      rewrite (full_axis (Uncertain u, sh) w x) in Hx by (right; congruence). apply dget_In in Hx. now apply (in_map fst) in Hx. }
    assert (NrT : NoDup (map (renamed axes) (dkeys T))) by (apply (inject_names axes _ _ Nr); assumption).
    pose proof Sp as (Wc & Fc & Cc & _).
    assert (Sub : incl (s_axes c) (dkeys T)).
    { intros ax Hax. rewrite <- (wf_keys c Wc) in Hax. apply key_size in Hax as [q Hax]. destruct (Fc ax q Hax) as (q' & H' & _). now apply (in_map fst) in H'. }
    destruct (fftn_ok zero t c axes s k st Wc Nx) as (r & Er & Wr & Sr & Vr).
    - intros ax Hax. assert (K := I ax Hax). apply key_size in K as [q K]. rewrite <- (wf_keys c Wc). assert (Z := Cc ax q Hax (IT' _ K)). now apply (in_map fst) in Z.
    - apply (inject_names axes _ _ NrT); [exact (proj1 Wc)|exact Sub].
    - intros ax Hax. destruct (Hk ax Hax) as (K & Q). split; [exact K|]. destruct s; [exact Q|]. apply Cc; auto.
    - exact Hs.
    - exact Hst.
    - exists r. split; [exact Er|]. split; [exact Wr|]. cbn zeta.
      assert (Wp : op_wf (u_part u w)) by (destruct w; assumption).
      destruct (spread_value zero axes st (u_part u w) T c r NT Wp ltac:(intros x Hx; apply IT; now apply I) NrT Axs Sp Wr Sr Vr) as (Fb & Cb & Q).
      split; [exact Cb|]. split; [exact Fb|]. intros e He. rewrite (Q _ He).
      apply (spectra_rel zero (fun e1 e2 : env => forall ax, e1 ax = in_world w e2 ax)).
      + intros x Hx. apply Axs in Hx. repeat split; auto.
      + intros f f' x i Hx R ax. assert (x <> axis_distribution) by (intros ->; apply Xs, I; now apply Axs).
        rewrite <- (world_swap w f' x i) by auto. unfold set_env. destruct (String.eqb ax x); auto.
      + intros f f' x Hx R. rewrite R. destruct w; cbn [in_world]; auto. unfold set_env.
        destruct (String.eqb_spec x axis_distribution) as [Ex|]; [|reflexivity]. exfalso. apply Xs, I. rewrite <- Ex. now apply Axs.
      + exact NT.
      + intros f f' _ R. rewrite u_at_part. apply ReduceFacts.op_at_respects. exact R.
      + intros ax n Hn. apply He. apply in_map_iff. exists (ax, n). auto.
      + intros ax. destruct w as [q|]; cbn [in_world]; [|reflexivity]. unfold set_env.
        destruct (String.eqb_spec ax axis_distribution) as [-> |Na]; [now rewrite Xr, String.eqb_refl|].
        destruct (String.eqb_spec (renamed axes ax) axis_distribution) as [Ea|]; [|reflexivity].
        exfalso. destruct (in_dec string_dec ax (dkeys axes)) as [Z|Z]; [|now rewrite (renamed_out axes ax Z) in Ea].
        inversion Nr as [|? ? Nin _]; subst. apply Nin. rewrite Xr. apply in_map_iff. exists ax. auto. }
  destruct (Part None a Sa) as (rn & En & Wrn & Hn & Fn & Vn). destruct (Part (Some 0) b Sb) as (rd & Ed & Wrd & Hd & Fd & Vd).
  rewrite En. cbn [bind]. rewrite Ed. cbn [bind].
  assert (Xn : ~ In axis_distribution (dkeys (op_shape (OpArr rn)))).
  { cbn [op_shape]. intros Q. apply key_size in Q as [q Q]. destruct (Fn _ _ Q) as (q' & Hq & _). apply in_map_iff in Hq as ([z v] & Ez & Hz). cbn [fst full_shape snd] in *.
    injection Ez as Ez _. inversion Nr as [|? ? Nin _]; subst. apply Nin. rewrite Xr. apply in_map_iff. exists z. split; auto.
    apply (in_map fst) in Hz. change (In (fst (z, v)) (dkeys (spectra_shape st sh))) in Hz. now rewrite dkeys_spectra in Hz. }
  exists rn, rd. cbn zeta. split; [now apply mk_unc_intro|]. split; [split; [exact Wrn|split; [exact Wrd|exact Xn]]|].
  intros [w|].
  - destruct (Part (Some w) b Sb) as (rd' & Ed' & _ & Hd' & Fd' & Vd'). rewrite Ed in Ed'. injection Ed' as <-. split; [exact Hd'|]. split; [exact Fd'|]. exact Vd'.
  - split; [exact Hn|]. split; [exact Fn|]. exact Vn.
Qed.

Theorem u_fftn_refused {A} (zero : A) (t : ntransform A) (u : unc A) sh (axes : dict string) (s : option (dict nat)) : u_wf u -> u_shape u = Ok sh ->
  ~ incl (dkeys axes) (dkeys sh) \/ (exists d, s = Some d /\ exists ax, ~ (In ax (dkeys d) <-> In ax (dkeys axes))) ->
  u_fftn zero t u axes s = Err ValueError.
Proof.
  intros W H C. destruct (transformed_parts (dkeys axes) (fun a => na_fftn zero t a axes s) u sh W H) as (Bad & Good). unfold u_fftn.
  destruct (forallb (fun ax => smem ax (dkeys sh)) (dkeys axes)) eqn:X.
  - assert (I : incl (dkeys axes) (dkeys sh)) by (intros ax Hax; rewrite forallb_forall in X; apply smem_In; now apply X).
    destruct C as [C|C]; [contradiction|]. destruct (Good I) as (a & b & (Wa & _) & _ & ->). rewrite (fftn_refused zero t a axes s Wa); [reflexivity|now right].
  - apply Bad. intros Q. apply Bool.not_true_iff_false in X. apply X, forallb_forall. intros ax Hax. apply smem_In. now apply Q.
Qed.
