(** Facts about the root finders. *)
From Coq Require Import String List Arith ZArith Bool Lia.
From Verif Require Import Base BaseFacts Numpy NumpyFacts Shapes Scalar Elementwise Reduce Vector Matrix Optimize
  Spec SpecDerived SpecVector SpecMatrix SpecOptimize ShapesFacts AlignFacts GetitemFacts ReduceFacts SortingFacts VectorFacts
  CartesianFacts VectorIndexFacts LinspaceFacts ElementwiseFacts SetitemFacts MatrixFacts.
Import ListNotations.
Open Scope nat_scope.
Open Scope list_scope.

(** ** Ufuncs *)

Lemma array_ufunc_inv {A B} (h : list A -> B) os r :
  Forall op_wf os -> array_ufunc h os = Ok r ->
  wf r /\ broadcast_shapes (op_shapes os) = Ok (sshape r) /\ forall e, at_ r e = h (map (fun o => op_at o e) os).
Proof.
  intros W E. destruct (shape_broadcasted os) as [sh|er] eqn:Sh.
  - destruct (array_ufunc_ok h os sh W Sh) as (r' & E' & Wr & Sr & V). rewrite E in E'. injection E' as <-.
    split; [exact Wr|]. split; [now rewrite Sr|exact V].
  - unfold array_ufunc in E. rewrite Sh in E. discriminate.
Qed.

Lemma array_ufunc_reads {A A'} (h : list A -> A') B os :
  existsb (fun o => negb (is_num o)) os = true ->
  NoDup (dkeys B) -> Forall op_wf os -> Forall (fun o => fits_in (op_shape o) B) os ->
  exists r, array_ufunc h os = Ok r /\ reads B (OpArr r) (fun e => h (map (fun x => op_at x e) os)).
Proof.
  intros X N W S. destruct (ufunc_reads h B _ N W S) as (o & E & R). unfold op_ufunc in E.
  assert (Y : forallb is_num os = false).
  { clear - X. induction os as [|o l IH]; simpl in *; [discriminate|]. destruct (is_num o); simpl in *; auto. }
  rewrite Y in E. destruct (array_ufunc h os) as [r|]; [|discriminate]. injection E as <-. now exists r.
Qed.

Lemma u1_reads {A B} (d : A) (h : A -> B) sh a f : NoDup (dkeys sh) -> reads sh (OpArr a) f ->
  exists r, u1 d h a = Ok r /\ reads sh (OpArr r) (fun e => h (f e)).
Proof.
  intros N (W & S & V). destruct (array_ufunc_reads (fun l => h (nth 0 l d)) sh [OpArr a]) as (r & E & R); auto.
  exists r. split; [exact E|]. eapply reads_ext; [exact R|]. intros e I. cbn [map nth]. now rewrite V.
Qed.

Lemma u2_reads {A B} (d : A) (h : A -> A -> B) sh a b f g : NoDup (dkeys sh) -> reads sh (OpArr a) f -> reads sh (OpArr b) g ->
  exists r, u2 d h a b = Ok r /\ reads sh (OpArr r) (fun e => h (f e) (g e)).
Proof.
  intros N (W & S & V) (W' & S' & V').
  destruct (array_ufunc_reads (fun l => h (nth 0 l d) (nth 1 l d)) sh [OpArr a; OpArr b]) as (r & E & R); auto.
  exists r. split; [exact E|]. eapply reads_ext; [exact R|]. intros e I. cbn [map nth]. now rewrite V, V'.
Qed.

Lemma num_reads {A B} (d : A) (h : A -> A -> B) sh x b g : NoDup (dkeys sh) -> reads sh (OpArr b) g ->
  exists r, array_ufunc (fun l => h (nth 0 l d) (nth 1 l d)) [OpNum x; OpArr b] = Ok r /\
    reads sh (OpArr r) (fun e => h x (g e)).
Proof.
  intros N (W' & S' & V').
  destruct (array_ufunc_reads (fun l => h (nth 0 l d) (nth 1 l d)) sh [OpNum x; OpArr b]) as (r & E & R); auto.
  { constructor; [exact Logic.I|auto]. }
  { constructor; [intros ax n []|auto]. }
  exists r. split; [exact E|]. eapply reads_ext; [exact R|]. intros e I. cbn [map nth]. now rewrite V'.
Qed.

Lemma fits_refl (s : shape) : fits_in s s.
Proof. intros ax n H. exists n. auto. Qed.

Lemma reads_own {A} (a : sarr A) : wf a -> reads (sshape a) (OpArr a) (at_ a).
Proof. intros W. split; [exact W|]. split; [apply fits_refl|]. intros e I. simpl. now apply bat_inside. Qed.

Lemma broadcast_fits l r s : Forall (fun s => NoDup (dkeys s)) l -> broadcast_shapes l = Ok r -> In s l -> fits_in s r.
Proof.
  intros N E H ax n Hn. destruct (broadcast_covers l r s ax n N E H Hn) as (K & C).
  apply dget_Some_key in K. destruct K as (m & K). apply dget_In in K. destruct C as [-> | C]; [exists m|exists n]; auto.
Qed.

Lemma broadcast_one (s : shape) : NoDup (dkeys s) -> broadcast_shapes [s] = Ok s.
Proof.
  intros N. rewrite broadcast_shapes_entries by (repeat constructor; exact N).
  simpl concat. rewrite app_nil_r. now apply bs_first.
Qed.

Lemma u1_ok {A B} (d : A) (h : A -> B) a : wf a ->
  exists r, u1 d h a = Ok r /\ wf r /\ sshape r = sshape a /\ forall e, inside e (sshape a) -> at_ r e = h (at_ a e).
Proof.
  intros W. destruct (array_ufunc_ok (fun l => h (nth 0 l d)) [OpArr a] (sshape a)) as (r & E & Wr & Sr & V).
  { auto. }
  { unfold shape_broadcasted. apply broadcast_one. now apply wf_nodup. }
  exists r. split; [exact E|]. split; [exact Wr|]. split; [exact Sr|]. intros e I. rewrite V. cbn [map nth op_at]. now rewrite bat_inside.
Qed.

Lemma u2_inv {A B} (d : A) (h : A -> A -> B) a b r : wf a -> wf b -> u2 d h a b = Ok r ->
  wf r /\ broadcast_shapes [sshape a; sshape b] = Ok (sshape r) /\ forall e, at_ r e = h (bat a e) (bat b e).
Proof. intros W W' E. apply array_ufunc_inv in E; auto. Qed.

Lemma sarr_nil {A} (a : sarr A) : wf a -> sshape a = [] -> s_axes a = [] /\ forall e, bat a e = single a.
Proof.
  intros W S. assert (X : s_axes a = []) by (rewrite <- (wf_keys a W), S; reflexivity). split; [exact X|].
  intros e. unfold bat, at_, single. now rewrite X.
Qed.

(** ** The condition of an [if] *)

Lemma fibre_all sh S e e0 : (forall ax, In ax S -> e ax < size_of sh ax) ->
  exists e', In e' (fibre sh S e0) /\ forall ax, In ax S -> e' ax = e ax.
Proof.
  revert e0. induction S as [|x S IH]; intros e0 H.
  - exists e0. split; [now left|intros ax []].
  - destruct (IH (set_env e0 x (e x))) as (e' & H' & X).
    { intros ax Hax. apply H. now right. }
    exists e'. split.
    + simpl. apply in_flat_map. exists (e x). split; [apply in_seq; split; [lia|]; apply H; now left|exact H'].
    + intros ax [<- |Hax]; [|now apply X]. destruct (in_dec string_dec x S) as [Y|Y]; [now apply X|].
      destruct (fibre_inside _ _ _ _ H') as (_ & Z). rewrite Z by exact Y. unfold set_env. now rewrite String.eqb_refl.
Qed.

Lemma truth_single (r : sarr bool) : wf r -> s_axes r = [] -> truth r = Ok (single r).
Proof.
  intros (_ & L) E. rewrite E in L. unfold truth, ravel, single. destruct (nshape (s_nd r)); [reflexivity|discriminate].
Qed.

(** a reduction over all axes *)
Lemma reduce_all (f : list bool -> bool) (a : sarr bool) (w : option (sarr bool)) :
  wf a -> match w with Some m => wf m /\ same_shape (sshape m) (sshape a) | None => True end ->
  exists r l, na_reduce true f a None false (option_map OpArr w) None = Ok r /\ truth r = Ok (f (map (at_ a) l)) /\
    (forall e', In e' l -> inside e' (sshape a) /\ match w with Some m => at_ m e' = true | None => True end) /\
    (forall e, inside e (sshape a) -> match w with Some m => at_ m e = true | None => True end ->
       exists e', In e' l /\ forall ax, In ax (s_axes a) -> e' ax = e ax).
Proof.
  intros W Hw. assert (N := wf_nodup a W). assert (Ka := wf_keys a W).
  assert (Wo : forall o, option_map OpArr w = Some o -> op_wf o).
  { destruct w as [m|]; simpl; [|discriminate]. intros o H. injection H as <-. apply Hw. }
  assert (X := @reduce_spec bool bool true f a None false (option_map OpArr w) W Wo). cbv zeta in X.
  assert (Nl : Forall (fun s => NoDup (dkeys s)) (sshape a :: match option_map OpArr w with Some o => op_shapes [o] | None => [] end)).
  { constructor; [exact N|]. destruct w as [m|]; simpl; auto. constructor; auto. apply wf_nodup. apply Hw. }
  destruct (broadcast_shapes_total _ Nl) as [(sh & E)|E].
  2:{ exfalso. apply broadcast_shapes_conflict in E; [|exact Nl]. destruct E as (ax & n & m' & Hn & Hm & D & _).
      apply D. apply sizes_of_In in Hn, Hm. destruct Hn as (s & Hs & Hn), Hm as (t & Ht & Hm).
      assert (Y : forall s n, In s (sshape a :: match option_map OpArr w with Some o => op_shapes [o] | None => [] end) ->
                dget s ax = Some n -> dget (sshape a) ax = Some n).
      { clear - Hw N. intros s n [<- |H] D; auto. destruct w as [m|]; simpl in H; [|contradiction]. destruct H as [<- |[]].
        destruct Hw as (_ & Hw). apply dget_NoDup; auto. apply Hw. now apply dget_In. }
      assert (Z := eq_trans (eq_sym (Y s n Hs Hn)) (Y t m' Ht Hm)). now injection Z. }
  rewrite E in X. destruct X as (X & _).
  assert (Kin : forall ax, In ax (dkeys sh) <-> In ax (s_axes a)).
  { intros ax. rewrite <- Ka. split; intros H.
    - apply dget_Some_key in H. destruct H as (n & H). destruct (broadcast_attained _ _ ax n Nl E (dget_In _ _ _ H)) as (s & [<- |Hs] & H').
      + now apply (in_map fst) in H'.
      + destruct w as [m|]; simpl in Hs; [|contradiction]. destruct Hs as [<- |[]]. apply (proj2 Hw) in H'. now apply (in_map fst) in H'.
    - apply dget_Some_key in H. destruct H as (n & H). apply dget_In in H.
      apply (broadcast_covers _ _ (sshape a) ax n Nl E); [now left|exact H]. }
  destruct X as (r & Er & Wr & Ar & _ & V).
  { split; [apply W|]. split; [intros ax H; now apply Kin|]. split; [|auto]. intros o Ho. split; [reflexivity|]. intros ax. right.
    destruct w as [m|]; simpl in Ho; [|discriminate]. injection Ho as <-. simpl. apply same_shape_size_of; [apply wf_nodup; apply Hw|exact N|apply Hw]. }
  exists r. eexists. split; [exact Er|].
  assert (Ax : s_axes r = []).
  { rewrite Ar. apply filter_none. intros ax H. apply Kin in H. apply smem_In in H. now rewrite H. }
  split. { rewrite truth_single by auto. f_equal. unfold single. rewrite <- (V (fun _ => 0)). unfold at_. now rewrite Ax. }
  assert (FA : forall ax, In ax (filter (fun ax => smem ax (s_axes a)) (dkeys sh)) <-> In ax (s_axes a)).
  { intros ax. rewrite filter_In, smem_In, Kin. tauto. }
  assert (Ins : forall e', In e' (fibre (sshape a) (filter (fun ax => smem ax (s_axes a)) (dkeys sh)) (fun _ => 0)) -> inside e' (sshape a)).
  { intros e' H'. apply fibre_inside in H'. destruct H' as (H1 & _). intros ax n Hn. assert (Hx := H1 ax).
    unfold size_of in Hx. rewrite (dget_NoDup _ _ _ N Hn) in Hx. apply Hx. apply FA. rewrite <- Ka. now apply (in_map fst) in Hn. }
  split.
  - intros e' H. apply filter_In in H. destruct H as (H & Hm). split; [now apply Ins|].
    destruct w as [m|]; [|exact Logic.I]. simpl in Hm. rewrite bat_inside in Hm; [exact Hm|apply Hw|].
    eapply AlignFacts.same_shape_inside; [apply same_shape_sym; apply Hw|now apply Ins].
  - intros e I Hm.
    destruct (fibre_all (sshape a) (filter (fun ax => smem ax (s_axes a)) (dkeys sh)) e (fun _ => 0)) as (e' & H' & X).
    { intros ax H. apply FA in H.
      rewrite <- Ka in H. apply dget_Some_key in H. destruct H as (n & H). unfold size_of. rewrite H. apply I. now apply dget_In. }
    assert (Ea : forall ax, In ax (s_axes a) -> e' ax = e ax) by (intros ax H; apply X; now apply FA).
    exists e'. split; [|exact Ea]. apply filter_In. split; [exact H'|].
    destruct w as [m|]; [|reflexivity]. simpl. destruct Hw as (Wm & Sm).
    rewrite bat_inside; [|exact Wm|eapply AlignFacts.same_shape_inside; [apply same_shape_sym; exact Sm|now apply Ins]].
    rewrite <- Hm. unfold at_. f_equal. apply map_ext_in. intros ax H. apply Ea. rewrite <- Ka.
    rewrite <- (wf_keys m Wm) in H. apply (same_shape_keys _ _ Sm). exact H.
Qed.

Lemma at_axes {A} (a : sarr A) e e' : (forall ax, In ax (s_axes a) -> e' ax = e ax) -> at_ a e' = at_ a e.
Proof. intros H. unfold at_. f_equal. now apply map_ext_in. Qed.

Lemma all_true_spec (a : sarr bool) : wf a ->
  exists b, all_true a = Ok b /\ (b = true <-> forall e, inside e (sshape a) -> at_ a e = true).
Proof.
  intros W. destruct (reduce_all (forallb (fun b => b)) a None W Logic.I) as (r & l & E & T & H1 & H2).
  unfold all_true. simpl in E. rewrite E. cbn [bind]. rewrite T. eexists. split; [reflexivity|].
  rewrite forallb_forall. split.
  - intros H e I. destruct (H2 e I Logic.I) as (e' & He & X). rewrite <- (at_axes a e e' X).
    apply H. now apply in_map.
  - intros H x Hx. apply in_map_iff in Hx. destruct Hx as (e' & <- & He). apply H. now apply H1.
Qed.

Lemma any_true_spec (a : sarr bool) (w : option (sarr bool)) :
  wf a -> match w with Some m => wf m /\ same_shape (sshape m) (sshape a) | None => True end ->
  exists b, any_true a w = Ok b /\
    (b = true <-> exists e, inside e (sshape a) /\ match w with Some m => at_ m e = true | None => True end /\ at_ a e = true).
Proof.
  intros W Hw. destruct (reduce_all (existsb (fun b => b)) a w W Hw) as (r & l & E & T & H1 & H2).
  unfold any_true. rewrite E. cbn [bind]. rewrite T. eexists. split; [reflexivity|].
  rewrite existsb_exists. split.
  - intros (x & Hx & ->). apply in_map_iff in Hx. destruct Hx as (e' & X & He). exists e'.
    destruct (H1 e' He). auto.
  - intros (e & I & M & X). destruct (H2 e I M) as (e' & He & Y). exists true. split; [|reflexivity].
    apply in_map_iff. exists e'. split; [|exact He]. now rewrite (at_axes a e e' Y).
Qed.

(** ** Newton's method *)

Section Newton.
Context {F : Type} (K : arith F) (absolute : F -> F) (less : F -> F -> bool).
Variables (function jacobian : sarr F -> res (sarr F)).
Hypotheses (Hf : returns_wf function) (Hj : returns_wf jacobian).
Variable (tolerance : sarr F).
Hypotheses (Wt : wf tolerance) (St : sshape tolerance = []).

Notation below' := (below absolute less (single tolerance)).
Notation pass := (newton_pass K absolute less function jacobian tolerance).

Lemma nil_fits (sh : shape) : fits_in [] sh.
Proof. intros ax n []. Qed.

Lemma tolerance_reads sh : reads sh (OpArr tolerance) (fun _ => single tolerance).
Proof.
  split; [exact Wt|]. split; [simpl; rewrite St; apply nil_fits|]. intros e _. simpl. now apply sarr_nil.
Qed.

Notation flags_of' := (flags_of absolute less (single tolerance)).

Lemma flags_spec f : wf f ->
  exists size c, u1 (zero K) absolute f = Ok size /\ u2 (zero K) less size tolerance = Ok c /\ flags_of' c f.
Proof.
  intros W. destruct (u1_ok (zero K) absolute f W) as (size & E1 & Wz & Sz & Vz).
  destruct (array_ufunc_ok (fun l => less (nth 0 l (zero K)) (nth 1 l (zero K))) [OpArr size; OpArr tolerance] (sshape f))
    as (c & E2 & Wc & Sc & Vc).
  { auto. }
  { unfold shape_broadcasted, op_shapes. cbn [flat_map app]. rewrite St, Sz.
    rewrite broadcast_shapes_entries by (repeat constructor; now apply wf_nodup).
    simpl concat. rewrite app_nil_r. apply bs_first. now apply wf_nodup. }
  exists size, c. split; [exact E1|]. split; [exact E2|]. split; [exact Wc|]. split; [exact Sc|].
  intros e I. rewrite Vc. cbn [map nth op_at]. rewrite (proj2 (sarr_nil tolerance Wt St)).
  rewrite bat_inside; [|exact Wz|now rewrite Sz]. now rewrite Vz.
Qed.

Definition newton_rest (x f : sarr F) (c : sarr bool) : res (option (sarr bool * sarr F * sarr F)) :=
  jac <- jacobian x ;;
  correction <- u2 (zero K) (over K) f jac ;;
  x' <- u2 (zero K) (minus K) x correction ;;
  f' <- function x' ;;
  Ok (Some (c, x', f')).

Lemma newton_pass_spec x f : wf f ->
  exists c, flags_of' c f /\
    ((below' f /\ pass x f = Ok None) \/ (~ below' f /\ pass x f = newton_rest x f c)).
Proof.
  intros W. destruct (flags_spec f W) as (size & c & E1 & E2 & Fc). exists c. split; [exact Fc|].
  destruct Fc as (Wc & Sc & Vc). unfold newton_pass. rewrite E1. cbn [bind]. rewrite E2. cbn [bind].
  destruct (all_true_spec c Wc) as (b & Eb & Hb). rewrite Eb. cbn [bind].
  assert (X : b = true <-> below' f).
  { rewrite Hb, Sc. unfold below. split; intros H e I; [rewrite <- Vc|rewrite Vc]; auto. }
  destruct b.
  - left. split; [now apply X|reflexivity].
  - right. split; [intros Y; apply X in Y; discriminate|reflexivity].
Qed.

Lemma newton_rest_spec x f c : wf x -> wf f ->
  match newton_rest x f c with
  | Ok (Some (c', x', f')) => c' = c /\ wf x' /\ newton_step K jacobian x f x' /\ function x' = Ok f'
  | Ok None => False
  | Err e => newton_step_fails K function jacobian x f e
  end.
Proof.
  intros Wx Wf. unfold newton_rest. destruct (jacobian x) as [jac|e] eqn:Ej; cbn [bind].
  2:{ now left. }
  assert (Wj := Hj x jac Wx Ej).
  assert (Nl : Forall (fun s => NoDup (dkeys s)) [sshape x; sshape f; sshape jac]).
  { repeat constructor; now apply wf_nodup. }
  assert (OKs : forall sh, broadcast_shapes [sshape x; sshape f; sshape jac] = Ok sh ->
            exists corr x', u2 (zero K) (over K) f jac = Ok corr /\ u2 (zero K) (minus K) x corr = Ok x' /\ wf x' /\
              reads sh (OpArr x') (fun e => minus K (bat x e) (over K (bat f e) (bat jac e))) ).
  { intros sh E. assert (N : NoDup (dkeys sh)) by (apply (broadcast_shapes_ok _ _ Nl E)).
    assert (Fx : fits_in (sshape x) sh) by (apply (broadcast_fits _ _ _ Nl E); simpl; auto).
    assert (Ff : fits_in (sshape f) sh) by (apply (broadcast_fits _ _ _ Nl E); simpl; auto).
    assert (Fj : fits_in (sshape jac) sh) by (apply (broadcast_fits _ _ _ Nl E); simpl; auto).
    destruct (u2_reads (zero K) (over K) sh f jac _ _ N (reads_self sh (OpArr f) Wf Ff) (reads_self sh (OpArr jac) Wj Fj)) as (corr & Ec & Rc).
    destruct (u2_reads (zero K) (minus K) sh x corr _ _ N (reads_self sh (OpArr x) Wx Fx) Rc) as (x' & Ex & Rx).
    exists corr, x'. repeat split; auto; apply Rx. }
  destruct (broadcast_shapes_total _ Nl) as [(sh & E)|E].
  - destruct (OKs sh E) as (corr & x' & Ec & Ex & Wx' & Rx). rewrite Ec. cbn [bind]. rewrite Ex. cbn [bind].
    assert (St' : newton_step K jacobian x f x').
    { exists jac, sh. split; [exact Ej|]. split; [exact E|].
      assert (Sm : same_shape sh (sshape x')).
      { destruct (u2_inv _ _ _ _ _ Wf Wj Ec) as (Wc & Sc & _). destruct (u2_inv _ _ _ _ _ Wx Wc Ex) as (_ & Sx & _).
        assert (G := broadcast_shapes_groups [[sshape x]; [sshape f; sshape jac]] [sshape x; sshape corr]).
        change (concat [[sshape x]; [sshape f; sshape jac]]) with [sshape x; sshape f; sshape jac] in G.
        rewrite E, Sx in G. apply G.
        - repeat constructor; now apply wf_nodup.
        - constructor; [apply broadcast_one; now apply wf_nodup|]. constructor; [exact Sc|constructor]. }
      split; [exact Sm|]. intros e I. destruct Rx as (_ & _ & V). rewrite <- V by exact I. simpl. rewrite bat_inside; auto.
      eapply AlignFacts.same_shape_inside; eauto. }
    destruct (function x') as [f'|e] eqn:Ef; cbn [bind].
    + auto.
    + right. right. exists x'. auto.
  - assert (Fail : exists e, (corr <- u2 (zero K) (over K) f jac ;; u2 (zero K) (minus K) x corr) = Err e).
    { destruct (u2 (zero K) (over K) f jac) as [corr|e] eqn:Ec; cbn [bind]; [|eauto].
      destruct (u2 (zero K) (minus K) x corr) as [x'|e] eqn:Ex; [|eauto]. exfalso.
      destruct (u2_inv _ _ _ _ _ Wf Wj Ec) as (Wc & Sc & _). destruct (u2_inv _ _ _ _ _ Wx Wc Ex) as (_ & Sx & _).
      assert (G := broadcast_shapes_groups [[sshape x]; [sshape f; sshape jac]] [sshape x; sshape corr]).
      change (concat [[sshape x]; [sshape f; sshape jac]]) with [sshape x; sshape f; sshape jac] in G.
      rewrite E, Sx in G. apply G.
      - repeat constructor; now apply wf_nodup.
      - constructor; [apply broadcast_one; now apply wf_nodup|]. constructor; [exact Sc|constructor]. }
    destruct (u2 (zero K) (over K) f jac) as [corr|e] eqn:Ec; cbn [bind] in *.
    + destruct (u2 (zero K) (minus K) x corr) as [x'|e] eqn:Ex; cbn [bind].
      * destruct Fail. discriminate.
      * right. left. exists jac. repeat split; auto. destruct (u2_inv _ _ _ _ _ Wf Wj Ec) as (Wc & _).
        apply array_ufunc_err in Ex; [apply Ex|auto].
    + right. left. exists jac. repeat split; auto. apply array_ufunc_err in Ec; [apply Ec|auto].
Qed.

Definition newton_link (s s' : seen F) : Prop :=
  newton_step K jacobian (at_x s) (at_f s) (at_x s') /\ function (at_x s') = Ok (at_f s') /\
  flags_of' (at_flags s') (at_f s).

Lemma newton_loop_spec n : forall i x f c, wf x -> wf f ->
  let tr := fst (newton_loop K absolute less function jacobian tolerance n i x f c) in
  length tr <= n /\ (n <> 0 -> hd_error tr = Some (mkSeen i x f c)) /\
  (forall k s, nth_error tr k = Some s -> at_step s = i + k /\ wf (at_x s) /\ wf (at_f s)) /\
  linked newton_link tr /\
  match snd (newton_loop K absolute less function jacobian tolerance n i x f c) with
  | Ok y => exists init s, tr = init ++ [s] /\ at_x s = y /\ below' (at_f s) /\ Forall (fun s => ~ below' (at_f s)) init
  | Err e => Forall (fun s => ~ below' (at_f s)) tr /\
             ((length tr = n /\ e = ValueError) \/
              exists init s, tr = init ++ [s] /\ newton_step_fails K function jacobian (at_x s) (at_f s) e)
  end.
Proof.
  induction n as [|n IH]; intros i x f c Wx Wf.
  { simpl. split; [lia|]. split; [congruence|]. split; [intros [|k] s H; discriminate|].
    split; [intros [|k] s s' H; discriminate|]. split; [constructor|left; auto]. }
  cbn [newton_loop]. destruct (newton_pass_spec x f Wf) as (c' & Fc & [(B & E)|(B & E)]); rewrite E.
  - cbn [fst snd length hd_error]. split; [lia|]. split; [reflexivity|]. split.
    { intros [|[|k]] s H; try discriminate. injection H as <-. simpl. rewrite Nat.add_0_r. auto. }
    split; [intros [|k] s s' H H'; [discriminate|destruct k; discriminate]|].
    exists [], (mkSeen i x f c). auto.
  - assert (X := newton_rest_spec x f c' Wx Wf). destruct (newton_rest x f c') as [[[[c2 x'] f']|]|e] eqn:R.
    + destruct X as (-> & Wx' & Stp & Ef). assert (Wf' := Hf x' f' Wx' Ef).
      destruct (IH (S i) x' f' c' Wx' Wf') as (L & H & P & Lk & Res). clear IH. cbv zeta in *.
      destruct (newton_loop K absolute less function jacobian tolerance n (S i) x' f' c') as (tr & r) eqn:EL.
      cbn [fst snd] in *. split; [simpl; lia|]. split; [reflexivity|]. split; [|split].
      * intros [|k] s Hs. { injection Hs as <-. simpl. rewrite Nat.add_0_r. auto. }
        destruct (P k s Hs) as (Y & Z). split; [lia|exact Z].
      * intros [|k] s s' Hs Hs'; [|exact (Lk k s s' Hs Hs')].
        injection Hs as <-. cbn [nth_error] in Hs'. destruct n as [|n].
        { destruct tr; [discriminate|simpl in L; lia]. }
        destruct tr as [|s1 tr]; [discriminate|]. assert (H1 := H ltac:(lia)). injection H1 as ->. injection Hs' as <-.
        repeat split; simpl; auto; apply Fc.
      * destruct r as [y|e].
        -- destruct Res as (init & s & -> & Hx & Hb & Hi). exists (mkSeen i x f c :: init), s. repeat split; auto.
        -- destruct Res as (Hall & [(Le & ->)|(init & s & -> & Sf)]).
           ++ split; [constructor; auto|]. left. simpl. auto.
           ++ split; [constructor; auto|]. right. exists (mkSeen i x f c :: init), s. auto.
    + contradiction.
    + cbn [fst snd length hd_error]. split; [lia|]. split; [reflexivity|]. split.
      { intros [|[|k]] s H; try discriminate. injection H as <-. simpl. rewrite Nat.add_0_r. auto. }
      split; [intros [|k] s s' H H'; [discriminate|destruct k; discriminate]|].
      split; [constructor; auto|]. right. exists [], (mkSeen i x f c). auto.
Qed.

(** ** The beginning *)

Lemma initial_flags_spec f sh : wf f -> NoDup (dkeys sh) -> fits_in (sshape f) sh ->
  exists c, initial_flags K f sh = Ok c /\ wf c /\ sshape c = sh /\
    forall e, inside e sh -> at_ c e = negb (is_zero K (times K (zero K) (bat f e))).
Proof.
  intros W N S. unfold initial_flags.
  destruct (num_reads (zero K) (times K) sh (zero K) f (bat f) N) as (z & Ez & Wz & Sz & Vz).
  { split; [exact W|]. split; [exact S|reflexivity]. }
  rewrite Ez. cbn [bind op_shape] in *. 
  destruct (na_broadcast_to_intro z sh Wz N) as (z' & Ez').
  { intros ax H. rewrite <- (wf_keys z Wz) in H. apply dget_Some_key in H. destruct H as (n & H).
    destruct (Sz ax n (dget_In _ _ _ H)) as (m & Hm & _). now apply (in_map fst) in Hm. }
  { intros ax n H. destruct (Sz ax n (dget_In _ _ _ H)) as (m & Hm & [-> | ->]); auto. }
  rewrite Ez'. cbn [bind]. destruct (na_broadcast_to_ok z sh z' Wz N Ez') as (_ & _ & Wz' & Sz' & Vz').
  destruct (u1_ok (zero K) (fun x => negb (is_zero K x)) z' Wz') as (c & Ec & Wc & Sc & Vc).
  exists c. rewrite Ec. split; [reflexivity|]. split; [exact Wc|]. split; [congruence|]. intros e I.
  rewrite Vc by (now rewrite Sz'). f_equal. f_equal. rewrite Vz'. now apply Vz.
Qed.

Lemma broadcast_of_ok (a : sarr F) sh : wf a -> NoDup (dkeys sh) -> fits_in (sshape a) sh ->
  exists b, na_broadcast_to a sh false = Ok b /\ broadcast_of a sh b.
Proof.
  intros Wz N Sz. destruct (na_broadcast_to_intro a sh Wz N) as (z' & Ez').
  { intros ax H. rewrite <- (wf_keys a Wz) in H. apply dget_Some_key in H. destruct H as (n & H).
    destruct (Sz ax n (dget_In _ _ _ H)) as (m & Hm & _). now apply (in_map fst) in Hm. }
  { intros ax n H. destruct (Sz ax n (dget_In _ _ _ H)) as (m & Hm & [-> | ->]); auto. }
  exists z'. split; [exact Ez'|]. destruct (na_broadcast_to_ok a sh z' Wz N Ez') as (_ & _ & Wz' & Sz' & Vz').
  split; [exact Wz'|]. split; [exact Sz'|]. intros e I. apply Vz'.
Qed.

End Newton.

Section RootNewton.
Context {F : Type} (K : arith F) (absolute : F -> F) (less : F -> F -> bool).
Variables (function jacobian : sarr F -> res (sarr F)).
Hypotheses (Hf : returns_wf function) (Hj : returns_wf jacobian).
Variables (guess tolerance : sarr F) (n : nat).
Hypotheses (Wg : wf guess) (Wt : wf tolerance).

Notation below' := (below absolute less (single tolerance)).
Notation run := (root_newton K absolute less function jacobian guess tolerance n).

(** what can go wrong before the loop *)
Definition start_fails (e : err) : Prop :=
  function guess = Err e \/
  (exists f, function guess = Ok f /\ e = ValueError /\
     (sshape tolerance <> [] \/ broadcast_shapes [sshape f; sshape guess] = Err ValueError)).

Lemma newton_start_spec :
  match newton_start K function guess tolerance with
  | Ok (x, f, c) => sshape tolerance = [] /\ wf x /\ wf f /\ function guess = Ok f /\
      exists sh, broadcast_shapes [sshape f; sshape guess] = Ok sh /\ broadcast_of guess sh x /\
        wf c /\ sshape c = sh /\ forall e, inside e sh -> at_ c e = negb (is_zero K (times K (zero K) (bat f e)))
  | Err e => start_fails e
  end.
Proof.
  unfold newton_start. destruct (function guess) as [f|e] eqn:Ef; cbn [bind]; [|now left].
  assert (Wf := Hf guess f Wg Ef).
  destruct (sshape tolerance) as [|p l] eqn:St.
  2:{ right. exists f. repeat split; auto. left. rewrite St. discriminate. }
  unfold shape_broadcasted, op_shapes. cbn [flat_map app].
  assert (Nl : Forall (fun s => NoDup (dkeys s)) [sshape f; sshape guess]) by (repeat constructor; now apply wf_nodup).
  destruct (broadcast_shapes_total _ Nl) as [(sh & E)|E]; rewrite E; cbn [bind].
  2:{ right. exists f. auto. }
  assert (N : NoDup (dkeys sh)) by (apply (broadcast_shapes_ok _ _ Nl E)).
  destruct (initial_flags_spec K f sh Wf N) as (c & Ec & Wc & Sc & Vc).
  { apply (broadcast_fits _ _ _ Nl E). simpl; auto. }
  rewrite Ec. cbn [bind].
  destruct (broadcast_of_ok guess sh Wg N) as (x & Ex & Bx).
  { apply (broadcast_fits _ _ _ Nl E). simpl; auto. }
  rewrite Ex. cbn [bind]. split; [reflexivity|]. split; [apply Bx|]. split; [exact Wf|]. split; [reflexivity|]. exists sh. auto.
Qed.

Lemma newton_history :
  let tr := fst run in
  length tr <= n /\
  (forall k s, nth_error tr k = Some s -> at_step s = k) /\
  (forall s, nth_error tr 0 = Some s ->
     function guess = Ok (at_f s) /\
     exists sh, broadcast_shapes [sshape (at_f s); sshape guess] = Ok sh /\ broadcast_of guess sh (at_x s)) /\
  linked (fun s s' => newton_step K jacobian (at_x s) (at_f s) (at_x s') /\ function (at_x s') = Ok (at_f s') /\
            flags_of absolute less (single tolerance) (at_flags s') (at_f s)) tr.
Proof.
  assert (X := newton_start_spec). unfold root_newton. destruct (newton_start K function guess tolerance) as [[[x f] c]|e]; cbv zeta.
  - destruct X as (St & Wx & Wf & Ef & sh & Es & Bx & _).
    destruct (newton_loop_spec K absolute less function jacobian Hf Hj tolerance Wt St n 0 x f c Wx Wf) as (L & H & P & Lk & _).
    split; [exact L|]. split; [intros k s Hs; now apply P in Hs|]. split; [|exact Lk].
    intros s Hs. destruct n as [|n'].
    { destruct (fst _); [discriminate|simpl in L; lia]. }
    assert (H1 := H ltac:(lia)). destruct (fst _) as [|s1 tr]; [discriminate|]. injection H1 as ->. injection Hs as <-.
    simpl. split; [exact Ef|]. eauto.
  - simpl. split; [lia|]. split; [intros [|k] s H; discriminate|]. split; [discriminate|]. intros [|k] s s' H; discriminate.
Qed.

Lemma newton_returns x : snd run = Ok x ->
  exists init s, fst run = init ++ [s] /\ at_x s = x /\ wf x /\ wf (at_f s) /\ below' (at_f s) /\ Forall (fun s => ~ below' (at_f s)) init /\
    function (match init with [] => guess | _ => x end) = Ok (at_f s).
Proof.
  intros H. assert (Hist := newton_history). cbv zeta in Hist. destruct Hist as (_ & _ & H0 & Lk).
  assert (X := newton_start_spec). unfold root_newton in *. destruct (newton_start K function guess tolerance) as [[[x0 f] c]|e]; [|discriminate].
  destruct X as (St & Wx & Wf & Ef & sh & Es & Bx & _).
  destruct (newton_loop_spec K absolute less function jacobian Hf Hj tolerance Wt St n 0 x0 f c Wx Wf) as (L & Hh & P & _ & R).
  cbv zeta in *. rewrite H in R. destruct R as (init & s & E & Hx & B & Fi). exists init, s.
  assert (Ls : nth_error (init ++ [s]) (length init) = Some s).
  { rewrite nth_error_app2, Nat.sub_diag; [reflexivity|lia]. }
  rewrite <- E in Ls. destruct (P _ _ Ls) as (_ & W1 & W2). rewrite Hx in W1.
  do 6 (split; [assumption|]). destruct init as [|s0 init].
  - apply H0. rewrite E. reflexivity.
  - assert (Lp : exists p, nth_error (s0 :: init ++ [s]) (length init) = Some p).
    { destruct (nth_error (s0 :: init ++ [s]) (length init)) eqn:D; eauto. apply nth_error_None in D. simpl in D. rewrite app_length in D. simpl in D. lia. }
    destruct Lp as (p & Hp). change (s0 :: init ++ [s]) with ((s0 :: init) ++ [s]) in Hp. rewrite <- E in Hp.
    destruct (Lk _ _ _ Hp Ls) as (_ & Ef' & _). now rewrite <- Hx.
Qed.

Lemma newton_raises e : snd run = Err e ->
  Forall (fun s => ~ below' (at_f s)) (fst run) /\
  (start_fails e \/ (length (fst run) = n /\ e = ValueError) \/
   exists init s, fst run = init ++ [s] /\ newton_step_fails K function jacobian (at_x s) (at_f s) e).
Proof.
  intros H. assert (X := newton_start_spec). unfold root_newton in *.
  destruct (newton_start K function guess tolerance) as [[[x0 f] c]|e'].
  - destruct X as (St & Wx & Wf & Ef & sh & Es & Bx & _).
    destruct (newton_loop_spec K absolute less function jacobian Hf Hj tolerance Wt St n 0 x0 f c Wx Wf) as (L & Hh & P & _ & R).
    cbv zeta in *. rewrite H in R. destruct R as (R1 & R2). split; [exact R1|now right].
  - injection H as ->. split; [constructor|now left].
Qed.

Lemma newton_elementwise h x : applies function h -> snd run = Ok x ->
  forall e, inside e (sshape x) -> less (absolute (h (at_ x e))) (single tolerance) = true.
Proof.
  intros Ha H e I. destruct (newton_returns x H) as (init & s & E & Hx & Wx & Ws & B & _ & Ef).
  assert (Hist := newton_history). cbv zeta in Hist. destruct Hist as (_ & _ & H0 & _).
  destruct init as [|s0 init].
  - destruct (Ha guess Wg) as (y & Ey & Wy & Sy & Vy). rewrite Ef in Ey. injection Ey as <-.
    destruct (H0 s) as (_ & sh & Es & Bx); [now rewrite E|]. destruct Bx as (_ & Sx & Vx). rewrite Hx in *.
    assert (Nl : Forall (fun s => NoDup (dkeys s)) [sshape (at_f s); sshape guess]) by (repeat constructor; now apply wf_nodup).
    rewrite Sx in I. rewrite Vx by exact I. unfold bat. set (e' := bclamp (sshape guess) e).
    assert (I' : inside e' (sshape guess)).
    { apply clamp_inside; [now apply wf_nodup|]. eapply fits_within; [|exact I]. apply (broadcast_fits _ _ _ Nl Es). simpl; auto. }
    rewrite <- Vy by exact I'. apply B. eapply AlignFacts.same_shape_inside; [apply same_shape_sym; exact Sy|exact I'].
  - destruct (Ha x Wx) as (y & Ey & Wy & Sy & Vy). rewrite Ef in Ey. injection Ey as <-.
    rewrite <- Vy by exact I. apply B. eapply AlignFacts.same_shape_inside; [apply same_shape_sym; exact Sy|exact I].
Qed.

End RootNewton.
