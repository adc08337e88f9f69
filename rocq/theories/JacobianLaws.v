(** The theorems on the Jacobian. *)
From Coq Require Import Ascii String List Arith ZArith Bool Lia Permutation Field Field_theory.
From Verif Require Import Base BaseFacts Numpy NumpyFacts Shapes Scalar Elementwise Vector Matrix Jacobian Spec SpecDerived SpecVector SpecMatrix SpecTransform SpecJacobian.
From Verif Require Import ShapesFacts AlignFacts ElementwiseFacts VectorFacts VectorIndexFacts MatrixFacts MatrixLaws TransformFacts JacobianFacts.
Import ListNotations.
Open Scope nat_scope.
Open Scope list_scope.

Section Scalars.
Context {F : Type} (K : arith F) (B : shape) (N : NoDup (dkeys B)).

Lemma op2_array (h : F -> F -> F) (a b : sarr F) o : op2 K h (OpArr a) (OpArr b) = Ok o -> exists c, o = OpArr c.
Proof.
  unfold op2, op_ufunc. cbn [forallb is_num andb]. intros E. destruct (array_ufunc _ _) as [c|]; [|discriminate].
  cbn [bind] in E. injection E as <-. now exists c.
Qed.

Lemma leaf_ufunc (h : F -> F -> F) (a b o : operand F) : op2 K h a b = Ok o ->
  vec_ufunc (fun l => match l with [x; y] => h x y | _ => zero K end) [Leaf a; Leaf b] = Ok (Leaf o).
Proof.
  intros E. unfold op2 in E. unfold vec_ufunc, vec_ufunc_rec. cbn [map depth list_max fold_right]. unfold first_node. cbn [flat_map app].
  unfold leaves_of. cbn. now rewrite E.
Qed.

Lemma kind_Leaf {L} (l : L) q : kind (Leaf l) q = None.
Proof. destruct q; reflexivity. Qed.

(** a vector and a scalar *)
Lemma vec_scalar_reads (h : F -> F -> F) (q : tree unit) (v : vec F) (s : operand F) : space q -> member B q v -> scalar_in B s ->
  exists r, vec_ufunc (fun l => match l with [x; y] => h x y | _ => zero K end) [v; Leaf s] = Ok r /\ member B q r /\
    forall e V, inside e B -> vector_reads v e V -> vector_reads r e (fun c => h (V c) (op_at s e)).
Proof.
  intros Sq Mv (Ws & Fs). set (hh := fun l => match l with [x; y] => h x y | _ => zero K end).
  assert (Mv' := Mv). destruct Mv' as (Vk & Vf & Kv).
  assert (Wv : Forall vec_wf [v; Leaf s]) by (constructor; [apply Vk|constructor; [constructor; exact Ws|constructor]]).
  assert (Al : pairwise_alike [v; Leaf s]).
  { intros t u Ht Hu c ty ns ty' ns' H1 H2. simpl in Ht, Hu. destruct Ht as [<- |[<- |[]]]; [|rewrite kind_Leaf in H1; discriminate].
    destruct Hu as [<- |[<- |[]]]; [|rewrite kind_Leaf in H2; discriminate]. rewrite H1 in H2. injection H2 as <- <-. split; [reflexivity|tauto]. }
  assert (Fit : forall c os, Forall2 (fun t y => reaches t c = Some y) [v; Leaf s] os ->
    exists a, os = [a; s] /\ reaches v c = Some a /\ op_wf a /\ fits_in (op_shape a) B).
  { intros c os R. inversion R as [|? a ? os1 Ra R1]; subst. inversion R1 as [|? b ? os2 Rb R2]; subst. inversion R2; subst.
    rewrite reaches_Leaf in Rb. injection Rb as <-. exists a. split; [reflexivity|]. split; [exact Ra|].
    destruct (reaches_leaf v c a Ra) as (c' & Lv). split; [eapply tree_ok_leaf_at; [apply Vk|exact Lv]|]. apply (Vf (String.concat "." c')). now exists c'. }
  destruct (vec_ufunc_success hh [v; Leaf s] Wv Al) as (r & E).
  { intros c os R C. destruct (Fit c os R) as (a & -> & _ & Wa & Fa).
    destruct (ufunc_reads hh B [a; s] N) as (o & Eo & _); [auto|auto|].
    assert (Wo : Forall op_wf [a; s]) by auto.
    destruct (op_ufunc_spec hh [a; s] o Wo Eo) as (_ & S & _).
    assert (Nd : Forall (fun s => NoDup (dkeys s)) (op_shapes [a; s])).
    { apply Forall_forall. intros z H. unfold op_shapes in H. apply in_flat_map in H.
      destruct H as ([b|y] & Hb & H); [|contradiction]. destruct H as [<- |[]]. rewrite Forall_forall in Wo. apply wf_nodup. exact (Wo _ Hb). }
    apply (broadcast_shapes_conflict _ Nd) in C. congruence. }
  assert (Kr : of_kind q r).
  { intros c. rewrite (vec_ufunc_rec_kinds _ _ _ _ E Al c). cbn [map first_some]. rewrite kind_Leaf, Kv. now destruct (kind q c). }
  assert (Sr : forall c o, leaf_at r c = Some o -> exists a, leaf_at v c = Some a /\ reads B o (fun e => h (op_at a e) (op_at s e))).
  { intros c o Lo. destruct (vec_ufunc_leaves hh [v; Leaf s] r Wv E c o Lo) as (os & R & El). destruct (Fit c os R) as (a & -> & Ra & Wa & Fa).
    assert (Wo : Forall op_wf [a; s]) by auto. assert (Fo : Forall (fun o => fits_in (op_shape o) B) [a; s]) by auto.
    destruct (ufunc_reads hh B [a; s] N Wo Fo) as (o' & Eo & (W' & F' & V')).
    destruct (op_ufunc_spec hh [a; s] o' Wo Eo) as (_ & S' & _). assert (El' := El). destruct El' as (W & S & _ & _).
    assert (Sh : op_shape o = op_shape o') by congruence. exists a. split.
    { destruct (leaf_at q c) as [u|] eqn:Lq; [exact (kind_reaches q v c u a Kv Lq a Ra) || now apply (kind_reaches q v c u)|].
      exfalso. apply (kind_leaf q r Kr) in Lq. congruence. }
    split; [exact W|]. split; [now rewrite Sh|]. intros e I. change (h (op_at a e) (op_at s e)) with (hh (map (fun x => op_at x e) [a; s])).
    apply elementwise_within; [exact Wo|exact El|]. eapply fits_within; [|exact I]. now rewrite Sh. }
  exists r. split; [exact E|].
  assert (Vr : vector_ok r).
  { destruct Sq as (Pn & Pt & Pd & Pf). split; [exact (kind_node q r Pn Kr)|]. split; [|split; [|exact (kind_filled q r Kr Pf)]].
    - apply (tree_ok_kind (fun _ => True) op_wf q r Pt Kr). intros c o Lo. destruct (Sr c o Lo) as (a & _ & Ro). apply Ro.
    - rewrite (kind_names q r Pt Kr). exact Pd. }
  split; [split; [exact Vr|]; split; [|exact Kr]; intros c o (c' & Lo & _); destruct (Sr c' o Lo) as (a & _ & Ro); apply Ro|].
  intros e V I R c o (c' & Lo & Hc). destruct (Sr c' o Lo) as (a & La & (_ & _ & Vo)). rewrite Vo by exact I. f_equal. apply R. now exists c'.
Qed.

Lemma scalar_norm (o : operand F) : scalar_in B o -> reads B (OpArr (normalize o)) (op_at o).
Proof. intros (W & Fo). apply normalize_reads. now apply reads_self. Qed.

Lemma reads_in (o : operand F) f : reads B o f -> scalar_in B o.
Proof. intros (W & Fo & _). split; assumption. Qed.

Variables (function : vec F -> res (vec F)) (a : sarr F) (dx : operand F).
Hypothesis Wa : scalar_in B (OpArr a).
Hypothesis Wd : scalar_in B dx.

Lemma jacobian_plain (g : env -> F -> F) : realises_plain B function g ->
  exists r, na_jacobian K function (Leaf (OpArr a)) (Leaf dx) = Ok (Column (Leaf r)) /\ scalar_in B r /\
    forall e, inside e B -> op_at r e = quotient K (g e (plus K (op_at (OpArr a) e) (op_at dx e))) (g e (op_at (OpArr a) e)) (op_at dx e).
Proof.
  intros Rf. assert (Ra := reads_self B (OpArr a) (proj1 Wa) (proj2 Wa)). assert (Rd := scalar_norm dx Wd).
  destruct (op2_reads K B (plus K) _ _ _ _ N Ra Rd) as (x0 & Ex0 & Rx0). destruct (op2_array _ _ _ _ Ex0) as (x0' & ->).
  destruct (Rf a Wa) as (f & Ef & Wf & Vf). destruct (Rf x0' (reads_in _ _ Rx0)) as (f0 & Ef0 & Wf0 & Vf0).
  destruct (op2_reads K B (minus K) _ _ _ _ N (reads_self B (OpArr f0) (proj1 Wf0) (proj2 Wf0)) (reads_self B (OpArr f) (proj1 Wf) (proj2 Wf))) as (df & Edf & Rdf).
  destruct (op2_reads K B (over K) _ _ _ _ N Rdf Rd) as (r & Er & Rr).
  exists r. split.
  - unfold na_jacobian. cbn [any_like bind map_tree]. rewrite Ef. cbn [bind]. unfold jacobian_scalar.
    rewrite (leaf_ufunc (plus K) _ _ _ Ex0). cbn [bind]. rewrite Ef0. cbn [bind]. unfold vsub. rewrite (leaf_ufunc (minus K) _ _ _ Edf). cbn [bind].
    unfold vdiv. rewrite (leaf_ufunc (over K) _ _ _ Er). reflexivity.
  - split; [exact (reads_in _ _ Rr)|]. intros e I. rewrite (reads_at B r _ e Rr I). unfold quotient.
    rewrite (Vf0 e I), (Vf e I). now rewrite (reads_at B _ _ e Rx0 I).
Qed.

Lemma jacobian_curve (q : tree unit) (g : env -> F -> string -> F) : space q -> realises_curve B q function g ->
  exists v, na_jacobian K function (Leaf (OpArr a)) (Leaf dx) = Ok (Column v) /\ member B q v /\
    forall e, inside e B -> vector_reads v e (fun r =>
      quotient K (g e (plus K (op_at (OpArr a) e) (op_at dx e)) r) (g e (op_at (OpArr a) e) r) (op_at dx e)).
Proof.
  intros Sq Rf. assert (Ra := reads_self B (OpArr a) (proj1 Wa) (proj2 Wa)). assert (Rd := scalar_norm dx Wd).
  destruct (op2_reads K B (plus K) _ _ _ _ N Ra Rd) as (x0 & Ex0 & Rx0). destruct (op2_array _ _ _ _ Ex0) as (x0' & ->).
  destruct (Rf a Wa) as (f & Ef & Mf & Vf). destruct (Rf x0' (reads_in _ _ Rx0)) as (f0 & Ef0 & Mf0 & Vf0).
  destruct (vsub_reads K B N q f0 f Sq Mf0 Mf) as (df & Edf & Mdf & Rdf).
  destruct (vec_scalar_reads (over K) q df (OpArr (normalize dx)) Sq Mdf (reads_in _ _ Rd)) as (v & Ev & Mv & Rv).
  assert (Fn : is_node f) by apply Mf.
  exists v. split.
  - unfold na_jacobian. cbn [any_like bind map_tree]. rewrite Ef. cbn [bind].
    assert (Ej : jacobian_scalar K function (Leaf (OpArr a)) f (Leaf (OpArr (normalize dx))) = Ok v).
    { unfold jacobian_scalar. rewrite (leaf_ufunc (plus K) _ _ _ Ex0). cbn [bind]. rewrite Ef0. cbn [bind]. rewrite Edf. cbn [bind]. exact Ev. }
    destruct Fn as (ty & cs & ->). now rewrite Ej.
  - split; [exact Mv|]. intros e I r o Po.
    rewrite <- (Rv e _ I (Rdf e _ _ I (Vf0 e I) (Vf e I)) r o Po). unfold quotient.
    rewrite (reads_at B _ _ e Rd I). now rewrite (reads_at B _ _ e Rx0 I).
Qed.
End Scalars.

Section Affine.
Context {F : Type} (K : arith F) (FK : is_field K).
Let Fth : field_theory (zero K) (one K) (plus K) (times K) (minus K) (neg K) (over K) (over K (one K)) eq := proj1 FK.
Add Field Kf8 : Fth.

Lemma sum_moved (ns : list string) (A X : string -> F) c d : NoDup ns -> In c ns ->
  sum_over K ns (fun k => times K (A k) (moved K X c d k)) = plus K (sum_over K ns (fun k => times K (A k) (X k))) (times K (A c) d).
Proof.
  induction ns as [|n ns IH]; intros Nn Hc; [destruct Hc|]. inversion Nn as [|? ? Hn Nn']; subst. cbn [sum_over fold_right].
  fold (sum_over K ns (fun k => times K (A k) (X k))). fold (sum_over K ns (fun k => times K (A k) (moved K X c d k))).
  destruct (String.eqb_spec n c) as [-> |Ne].
  - rewrite (sum_over_ext K ns _ (fun k => times K (A k) (X k))).
    + unfold moved. rewrite String.eqb_refl. ring.
    + intros k Hk. unfold moved. destruct (String.eqb_spec k c) as [-> |]; [contradiction|reflexivity].
  - destruct Hc as [Hc|Hc]; [congruence|]. rewrite (IH Nn' Hc). unfold moved. rewrite (proj2 (String.eqb_neq n c) Ne). ring.
Qed.

Lemma quotient_affine (ns : list string) (A X : string -> F) b c d : NoDup ns -> In c ns -> d <> zero K ->
  quotient K (plus K b (sum_over K ns (fun k => times K (A k) (moved K X c d k)))) (plus K b (sum_over K ns (fun k => times K (A k) (X k)))) d = A c.
Proof. intros Nn Hc Hd. unfold quotient. rewrite sum_moved by assumption. field. exact Hd. Qed.

Lemma jacobian_affine B (p q : tree unit) (function : vec F -> res (vec F)) (x dx : vec F) (A : env -> string -> string -> F) (b : env -> string -> F) :
  NoDup (dkeys B) -> space p -> space q -> member B p x -> step_ok B p dx ->
  realises B p q function (fun e V r => plus K (b e r) (sum_over K (names p) (fun c => times K (A e r c) (V c)))) ->
  exists m, na_jacobian K function x dx = Ok (Square m) /\ between B p q m /\ (forall row, In row (leaves m) -> of_kind p row) /\
    forall e D, inside e B -> step_reads p dx e D -> (forall c, In c (names p) -> D c <> zero K) -> matrix_reads m e (A e).
Proof.
  intros N Sp Sq Mx St Rf. destruct (jacobian_vector K B N p q function x dx Sp Mx St _ Sq Rf) as (m & E & Mk & Mf & Km & Kr & Rm).
  exists m. split; [exact E|].
  assert (Nr : forall row, In row (leaves m) -> names row = names p).
  { intros row H. apply kind_names; [apply Sp|now apply Kr]. }
  split.
  { split; [exact Mk|]. split; [exact Mf|]. split; [exact Km|]. split; [intros row H; now rewrite (Nr row H)|].
    intros row H. apply kind_type. now apply Kr. }
  split; [exact Kr|].
  intros e D I RD Hd r c o Co.
  rewrite <- (Rm e (fun k => comp K x k e) D I (comp_reads K x e (proj1 Mx)) RD r c o Co).
  assert (Hc : In c (names p)).
  { destruct Co as (pth & row & Lp & _ & Po). apply leaf_In in Lp. rewrite <- (Nr row Lp). apply part_name; [now apply (row_ok m)|eauto]. }
  symmetry. apply (quotient_affine (names p) (A e r)); [apply Sp|exact Hc|now apply Hd].
Qed.

Lemma gradient_affine B (p : tree unit) (function : vec F -> res (vec F)) (x dx : vec F) (A : env -> string -> F) (b : env -> F) :
  NoDup (dkeys B) -> space p -> member B p x -> step_ok B p dx ->
  realises_scalar B p function (fun e V => plus K (b e) (sum_over K (names p) (fun c => times K (A e c) (V c)))) ->
  exists v, na_jacobian K function x dx = Ok (Column v) /\ member B p v /\
    forall e D, inside e B -> step_reads p dx e D -> (forall c, In c (names p) -> D c <> zero K) -> vector_reads v e (A e).
Proof.
  intros N Sp Mx St Rf. destruct (jacobian_to_scalar K B N p function x dx Sp Mx St _ Rf) as (v & E & Mv & Rv).
  exists v. split; [exact E|]. split; [exact Mv|]. intros e D I RD Hd c o Co.
  rewrite <- (Rv e (fun k => comp K x k e) D I (comp_reads K x e (proj1 Mx)) RD c o Co).
  assert (Hc : In c (names p)) by (rewrite <- (member_names B p v Sp Mv); apply part_name; [apply Mv|eauto]).
  symmetry. apply (quotient_affine (names p) (A e)); [apply Sp|exact Hc|now apply Hd].
Qed.

(** multiplication by a matrix *)
Lemma jacobian_product B (p q : tree unit) (a : matrix F) (x dx : vec F) :
  NoDup (dkeys B) -> space p -> space q -> between B p q a -> member B p x -> step_ok B p dx ->
  exists m, na_jacobian K (matvec K a) x dx = Ok (Square m) /\ between B p q m /\
    forall e D A, inside e B -> step_reads p dx e D -> (forall c, In c (names p) -> D c <> zero K) -> matrix_reads a e A -> matrix_reads m e A.
Proof.
  intros N Sp Sq Ba Mx St.
  destruct (jacobian_affine B p q (matvec K a) x dx (fun e r c => entry K a r c e) (fun _ _ => zero K) N Sp Sq Mx St) as (m & E & Bm & Km & Rm).
  - intros v Mv. destruct (matvec_reads K FK B N p q a v Sp Sq Ba Mv) as (w & Ew & Mw & Rw). exists w. split; [exact Ew|]. split; [exact Mw|].
    intros e V I Rv r o Po. rewrite <- (Rw e _ V I (entry_reads K a e (proj1 Ba)) Rv r o Po). ring.
  - exists m. split; [exact E|]. split; [exact Bm|]. intros e D A I RD Hd Ra r c o Co.
    rewrite <- (Rm e D I RD Hd r c o Co). symmetry.
    destruct Ba as (Ak & _ & Ka & Ca & _). destruct Bm as (Mk & _ & Kq & Cm & _).
    destruct (cell_in m (names p) r c o Mk Cm Co) as (Hr & Hc).
    apply (reads_entry K a e A (names p)); auto. rewrite (kind_names q a (proj1 (proj2 Sq)) Ka).
    rewrite (kind_names q m (proj1 (proj2 Sq)) Kq) in Hr. exact Hr.
Qed.
End Affine.
