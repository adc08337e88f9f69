(** The bowl x x + y y, by which the documented rule is refuted. *)
From Coq Require Import Ascii String List Arith ZArith Bool Lia QArith Qcanon.
From Verif Require Import Base Numpy Shapes Scalar Elementwise Vector Matrix Transform Poly BigMatrix Jacobian VectorReduce VectorOptimize.
From Verif Require Import Spec SpecVector SpecMatrix SpecTransform SpecJacobian SpecVectorReduce SpecOptimize SpecInverse SpecVectorOptimize.
From Verif Require Import BaseFacts ShapesFacts VectorFacts VectorIndexFacts MatrixFacts MatrixLaws AlignFacts TransformFacts JacobianFacts VectorReduceFacts PdfFacts DotFacts VectorOptimizeFacts DescentFacts.
From Verif Require VectorOptimizeLaws Prop29 Prop81 Prop83.
Import ListNotations.
Open Scope nat_scope.
Open Scope list_scope.
Open Scope string_scope.

Local Notation qK := MatrixLaws.qK.
Local Notation q := Prop81.q.
Local Notation point := Prop83.point.
Local Notation p2 := Prop83.p2.

Definition bowl (v : vec Qc) : res (vec Qc) :=
  match v with
  | Node _ [(_, Leaf x); (_, Leaf y)] => a <- op2 qK Qcmult x x ;; b <- op2 qK Qcmult y y ;; c <- op2 qK Qcplus a b ;; Ok (Leaf c)
  | _ => Err TypeError
  end.
Definition bowl_gradient (v : vec Qc) : res (vec Qc) := vtimes qK (Leaf (OpNum (q 2))) v.

Lemma space_p2 : space p2.
Proof. apply (VectorOptimizeLaws.space_flat "Cartesian2d" ["x"; "y"]); [repeat constructor; simpl; intuition discriminate|discriminate]. Qed.

Lemma member_p2 B (v : vec Qc) : member B p2 v -> exists x y, v = point x y /\ scalar_in B x /\ scalar_in B y.
Proof.
  intros ((_ & W & _) & Fv & Kv). destruct v as [o|ty cs]; [specialize (Kv []); discriminate|].
  assert (K0 := Kv []). cbn in K0. injection K0 as -> Ec.
  destruct cs as [|[k1 t1] [|[k2 t2] [|]]]; try discriminate. cbn in Ec. injection Ec as -> ->.
  assert (K1 := Kv ["x"]). assert (K2 := Kv ["y"]). cbn in K1, K2.
  destruct t1 as [x|]; [|discriminate]. destruct t2 as [y|]; [|discriminate]. exists x, y. split; [reflexivity|].
  split; (split; [|]).
  - exact (tree_ok_leaf_at op_wf _ ["x"] x W eq_refl).
  - apply (Fv "x"). exists ["x"]. split; reflexivity.
  - exact (tree_ok_leaf_at op_wf _ ["y"] y W eq_refl).
  - apply (Fv "y"). exists ["y"]. split; reflexivity.
Qed.

Lemma bowl_realises B : NoDup (dkeys B) -> realises_scalar B p2 bowl (fun _ V => (V "x" * V "x" + V "y" * V "y")%Qc).
Proof.
  intros N v Mv. destruct (member_p2 B v Mv) as (x & y & -> & (Wx & Fx) & (Wy & Fy)). cbn [bowl point Prop83.point].
  destruct (ufunc_reads (fun l => match l with [x; y] => Qcmult x y | _ => zero qK end) B [x; x] N) as (a & Ea & (Wa & Fa & Ra)); [auto|auto|].
  destruct (ufunc_reads (fun l => match l with [x; y] => Qcmult x y | _ => zero qK end) B [y; y] N) as (b & Eb & (Wb & Fb & Rb)); [auto|auto|].
  destruct (ufunc_reads (fun l => match l with [x; y] => Qcplus x y | _ => zero qK end) B [a; b] N) as (c & Ec & (Wc & Fc & Rc)); [auto|auto|].
  exists c. unfold op2. rewrite Ea. cbn [bind]. rewrite Eb. cbn [bind]. rewrite Ec. cbn [bind]. split; [reflexivity|]. split; [split; assumption|].
  intros e V I RV. rewrite Rc by exact I. cbn. rewrite Ra, Rb by exact I. cbn.
  rewrite (RV "x" x), (RV "y" y); [reflexivity|exists ["y"]; split; reflexivity|exists ["x"]; split; reflexivity].
Qed.

Lemma bowl_gradient_realises B : NoDup (dkeys B) -> realises B p2 p2 bowl_gradient (fun _ V c => (q 2 * V c)%Qc).
Proof.
  intros N v Mv. assert (S2 : setting B p2 (Leaf (OpNum (q 2)))) by (split; [exact Logic.I|intros ax n []]).
  destruct (setting_op qK B N p2 space_p2 Qcmult (Leaf (OpNum (q 2))) v S2 (member_setting B p2 v Mv)) as (r & E & _ & Mr & Rr).
  assert (Mr' := Mr (or_intror Mv)). exists r. split; [exact E|]. split; [exact Mr'|]. intros e V I RV.
  assert (Q := Rr e (fun _ => q 2) V I (fun _ => eq_refl) (member_setting_reads B p2 v e V Mv RV)).
  destruct r as [|ty cs]; [destruct Mr' as (((? & ? & Q') & _) & _); discriminate|exact Q].
Qed.

Definition start : vec Qc := point (OpNum (q 1)) (OpNum (q 3)).
Lemma start_member : member [] p2 start.
Proof.
  split; [|split].
  - change start with (MatrixLaws.flat "Cartesian2d" ["x"; "y"] [OpNum (q 1); OpNum (q 3)]). Prop80.flat_ok; exact Logic.I.
  - intros c o (a & Ha & _). apply MatrixFacts.leaf_In in Ha. destruct Ha as [<- |[<- |[]]]; intros ax n [].
  - apply VectorOptimizeLaws.shadow_kind. reflexivity.
Qed.

Definition quarter : Qc := Q2Qc (1 # 4).
Definition hundredth : Qc := Q2Qc (1 # 100).
Definition slide (n : nat) : list (vseen Qc) * res (vec Qc) :=
  minimum_gradient_descent qK Prop29.qabs Prop29.qless bowl bowl_gradient start (Leaf (OpNum quarter)) (Leaf (OpNum (q 0))) (Leaf (OpNum hundredth)) n.

Lemma scalar_setting (x : Qc) B : setting B p2 (Leaf (OpNum x)).
Proof. split; [exact Logic.I|intros ax n []]. Qed.

Theorem not_documented Z : ~ documented qK [] p2 (fun _ V c => (q 2 * V c)%Qc) (fun _ _ => quarter) (fun _ _ => q 0) Z (fst (slide 3)).
Proof.
  intros D. set (e := fun _ : string => 0%nat).
  assert (N0 : NoDup (@dkeys nat [])) by constructor. assert (I0 : inside e []) by (intros ax n []).
  destruct (descent_history qK qK_field Prop29.qabs Prop29.qless [] N0 p2 space_p2 bowl bowl_gradient _ _ (bowl_realises [] N0) (bowl_gradient_realises [] N0)
    (Leaf (OpNum quarter)) (Leaf (OpNum (q 0))) (fun _ _ => quarter) (fun _ _ => q 0) (fun _ => hundredth) (scalar_setting _ _) (scalar_setting _ _)
    (fun _ _ _ => eq_refl) (fun _ _ _ => eq_refl) e I0 start (Leaf (OpNum hundredth)) 3 start_member (scalar_setting _ _) (fun _ _ => eq_refl)) as (H1 & _).
  fold (slide 3) in H1.
  set (X := fun k c => match nth_error (fst (slide 3)) k with Some s => comp qK (v_x s) c e | None => 0%Qc end).
  assert (Ps : positions (fst (slide 3)) e X).
  { intros k s Hs. assert (EX : X k = fun c => comp qK (v_x s) c e) by (unfold X; now rewrite Hs). rewrite EX. apply comp_reads. apply (H1 k s Hs). }
  assert (L : (2 < length (fst (slide 3)))%nat) by (vm_compute; lia).
  assert (Hc : In "x" (names p2)) by now left.
  assert (Q := D e X 1%nat "x" I0 Ps L Hc). cbn [velocity] in Q.
  replace (plus qK (times qK (q 0) (Z e "x")) (q 2 * X 0%nat "x")%Qc) with (q 2 * X 0%nat "x")%Qc in Q.
  - apply (f_equal this) in Q. vm_compute in Q. discriminate.
  - change (q 2 * X 0%nat "x" = 0 * Z e "x" + q 2 * X 0%nat "x")%Qc. ring.
Qed.
