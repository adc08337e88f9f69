(** Facts about the vector product and the volume of cells. *)
From Coq Require Import Ascii String List Arith ZArith Bool Lia Field Field_theory.
From Verif Require Import Base BaseFacts Numpy NumpyFacts Shapes Scalar Elementwise Vector Matrix Geometry
  Spec SpecDerived SpecVector SpecMatrix SpecGeometry ShapesFacts AlignFacts GetitemFacts VectorFacts CartesianFacts VectorIndexFacts
  LinspaceFacts MatrixFacts MatrixLaws GeometryFacts.
Import ListNotations.
Open Scope nat_scope.
Open Scope list_scope.

Section Volume.
Context {F : Type} (K : arith F) (FK : is_field K).
Let Fth : field_theory (zero K) (one K) (plus K) (times K) (minus K) (neg K) (over K) (over K (one K)) eq := proj1 FK.
Add Field Kf : Fth.

(** ** The vector product *)

Lemma vec2_leaf h (a b : operand F) : vec2 K h (Leaf a) (Leaf b) = (o <- op2 K h a b ;; Ok (Leaf o)).
Proof. reflexivity. Qed.
Lemma vec1_leaf h (a : operand F) : vec1 K h (Leaf a) = (o <- op1 K h a ;; Ok (Leaf o)).
Proof. reflexivity. Qed.

Lemma cross_eq ty (ax ay az bx by_ bz : operand F) :
  cross K (xyz ty ax ay az) (xyz ty bx by_ bz) =
    (x <- cross_term K (Leaf ay) (Leaf bz) (Leaf az) (Leaf by_) ;; x <- vec1 K (fun t => t) x ;;
     y <- cross_term K (Leaf ax) (Leaf bz) (Leaf az) (Leaf bx) ;; y <- vec1 K (neg K) y ;;
     z <- cross_term K (Leaf ax) (Leaf by_) (Leaf ay) (Leaf bx) ;; z <- vec1 K (fun t => t) z ;;
     Ok (Node ty [("x", x); ("y", y); ("z", z)]%string)).
Proof. unfold cross, xyz. rewrite String.eqb_refl. reflexivity. Qed.

Lemma cross_reads B ty (ax ay az bx by_ bz : operand F) fx fy fz gx gy gz : NoDup (dkeys B) ->
  reads B ax fx -> reads B ay fy -> reads B az fz -> reads B bx gx -> reads B by_ gy -> reads B bz gz ->
  exists cx cy cz, cross K (xyz ty ax ay az) (xyz ty bx by_ bz) = Ok (xyz ty cx cy cz) /\
    reads B cx (fun e => minus K (times K (fy e) (gz e)) (times K (fz e) (gy e))) /\
    reads B cy (fun e => minus K (times K (fz e) (gx e)) (times K (fx e) (gz e))) /\
    reads B cz (fun e => minus K (times K (fx e) (gy e)) (times K (fy e) (gx e))).
Proof.
  intros N Ax Ay Az Bx By Bz. rewrite cross_eq. unfold cross_term. rewrite !vec2_leaf.
  repeat (step K B N; try rewrite !vec2_leaf; try rewrite !vec1_leaf; cbn [bind]).
  do 3 eexists. split; [reflexivity|]. split; [|split]; (eapply reads_ext; [eassumption|]); intros e _; cbv beta; ring.
Qed.

Lemma cross_covers B ty (ax ay az bx by_ bz : operand F) fx fy fz gx gy gz : NoDup (dkeys B) ->
  covers [] B ax fx -> covers [] B ay fy -> covers [] B az fz -> covers [] B bx gx -> covers [] B by_ gy -> covers [] B bz gz ->
  exists cx cy cz, cross K (xyz ty ax ay az) (xyz ty bx by_ bz) = Ok (xyz ty cx cy cz) /\
    covers [] B cx (fun e => minus K (times K (fy e) (gz e)) (times K (fz e) (gy e))) /\
    covers [] B cy (fun e => minus K (times K (fz e) (gx e)) (times K (fx e) (gz e))) /\
    covers [] B cz (fun e => minus K (times K (fx e) (gy e)) (times K (fy e) (gx e))).
Proof.
  intros N Ax Ay Az Bx By Bz. rewrite cross_eq. unfold cross_term. rewrite !vec2_leaf.
  repeat (cstep K B N; try rewrite !vec2_leaf; try rewrite !vec1_leaf; cbn [bind]).
  do 3 eexists. split; [reflexivity|]. split; [|split]; (eapply covers_ext; [eassumption|]); intros e _; cbv beta; ring.
Qed.

(** ** The scalar product of three components *)

Lemma dot3_eq ty ty' (ax ay az bx by_ bz : operand F) :
  vec_dot K (xyz ty ax ay az) (xyz ty' bx by_ bz) =
    (p <- scalar_matmul K (normalize ax) (normalize bx) ;; r <- op2 K (plus K) (OpNum (zero K)) p ;;
     p <- scalar_matmul K (normalize ay) (normalize by_) ;; r <- op2 K (plus K) r p ;;
     p <- scalar_matmul K (normalize az) (normalize bz) ;; r <- op2 K (plus K) r p ;; Ok r).
Proof.
  cbn -[scalar_matmul op2 normalize].
  destruct (scalar_matmul K (normalize ax) (normalize bx)) as [px|]; [|reflexivity]. cbn [bind].
  destruct (op2 K (plus K) (OpNum (zero K)) px) as [r1|]; [|reflexivity]. cbn [bind].
  destruct (scalar_matmul K (normalize ay) (normalize by_)) as [py|]; [|reflexivity]. cbn [bind].
  destruct (op2 K (plus K) r1 py) as [r2|]; [|reflexivity]. cbn [bind].
  destruct (scalar_matmul K (normalize az) (normalize bz)) as [pz|]; [|reflexivity]. cbn [bind].
  destruct (op2 K (plus K) r2 pz); reflexivity.
Qed.

Lemma dot3_reads B ty ty' (ax ay az bx by_ bz : operand F) fx fy fz gx gy gz : NoDup (dkeys B) ->
  reads B ax fx -> reads B ay fy -> reads B az fz -> reads B bx gx -> reads B by_ gy -> reads B bz gz ->
  exists o, vec_dot K (xyz ty ax ay az) (xyz ty' bx by_ bz) = Ok o /\
    reads B o (fun e => plus K (plus K (times K (fx e) (gx e)) (times K (fy e) (gy e))) (times K (fz e) (gz e))).
Proof.
  intros N Ax Ay Az Bx By Bz. rewrite dot3_eq. apply normalize_reads in Ax, Ay, Az, Bx, By, Bz.
  assert (Z := reads_num B (zero K)).
  destruct (scalar_matmul_reads K FK B _ _ _ _ N Ax Bx) as (px & Ex & Px).
  destruct (scalar_matmul_reads K FK B _ _ _ _ N Ay By) as (py & Ey & Py).
  destruct (scalar_matmul_reads K FK B _ _ _ _ N Az Bz) as (pz & Ez & Pz).
  rewrite Ex. cbn [bind]. step K B N. rewrite Ey. cbn [bind]. step K B N. rewrite Ez. cbn [bind]. step K B N.
  eexists. split; [reflexivity|]. eapply reads_ext; [eassumption|]. intros e _. cbv beta. ring.
Qed.

Lemma normalize_covers l B (a : operand F) f : covers l B a f -> covers l B (OpArr (normalize a)) f.
Proof.
  intros (W & S & L & V). split; [now apply normalize_wf|]. simpl. rewrite normalize_shape. split; [exact S|]. split; [exact L|].
  intros e I. change (bat (normalize a) e) with (op_at (OpArr (normalize a)) e). rewrite op_at_normalize. auto.
Qed.

Definition somewhere (B : shape) (f : env -> F) : Prop := exists e, inside e B /\ f e <> zero K.

Lemma matmul_covers B a b f g : NoDup (dkeys B) -> covers [] B (OpArr a) f -> covers [] B (OpArr b) g ->
  exists o, scalar_matmul K a b = Ok o /\ covers [] B o (fun e => times K (f e) (g e)) /\
    (somewhere B f -> somewhere B g -> exists r, o = OpArr r).
Proof.
  intros N Ra Rb. unfold scalar_matmul.
  destruct (op_all_zero K a) eqn:Za; [|destruct (op_all_zero K b) eqn:Zb]; cbn [orb].
  - exists (OpNum (zero K)). split; [reflexivity|].
    assert (Q : forall e, inside e B -> f e = zero K) by (intros e I; exact (all_zero_at K FK B a f e (covers_reads _ _ _ _ Ra) Za I)).
    split.
    + eapply covers_ext; [apply covers_num|]. intros e I. cbv beta. rewrite Q by exact I. ring.
    + intros (e & I & Z). now apply Q in I.
  - exists (OpNum (zero K)). split; [reflexivity|].
    assert (Q : forall e, inside e B -> g e = zero K) by (intros e I; exact (all_zero_at K FK B b g e (covers_reads _ _ _ _ Rb) Zb I)).
    split.
    + eapply covers_ext; [apply covers_num|]. intros e I. cbv beta. rewrite Q by exact I. ring.
    + intros _ (e & I & Z). now apply Q in I.
  - destruct (op2_covers K [] [] B (times K) _ _ _ _ N Ra Rb) as (o & E & R). exists o. split; [exact E|]. split; [exact R|].
    intros _ _. destruct o as [r|x]; [eauto|]. apply op2_num in E. destruct E as (? & ? & E & _). discriminate.
Qed.

Lemma dot3_covers B ty ty' (ax ay az bx by_ bz : operand F) fx fy fz gx gy gz : NoDup (dkeys B) ->
  covers [] B ax fx -> covers [] B ay fy -> covers [] B az fz -> covers [] B bx gx -> covers [] B by_ gy -> covers [] B bz gz ->
  exists o, vec_dot K (xyz ty ax ay az) (xyz ty' bx by_ bz) = Ok o /\
    covers [] B o (fun e => plus K (plus K (times K (fx e) (gx e)) (times K (fy e) (gy e))) (times K (fz e) (gz e))) /\
    ((somewhere B fx /\ somewhere B gx) \/ (somewhere B fy /\ somewhere B gy) \/ (somewhere B fz /\ somewhere B gz) ->
     exists r, o = OpArr r).
Proof.
  intros N Ax Ay Az Bx By Bz. rewrite dot3_eq. apply normalize_covers in Ax, Ay, Az, Bx, By, Bz.
  assert (Z := covers_num B (zero K)).
  destruct (matmul_covers B _ _ _ _ N Ax Bx) as (px & Ex & Px & Sx).
  destruct (matmul_covers B _ _ _ _ N Ay By) as (py & Ey & Py & Sy).
  destruct (matmul_covers B _ _ _ _ N Az Bz) as (pz & Ez & Pz & Sz).
  rewrite Ex. cbn [bind]. destruct (op2_covers K _ _ B (plus K) _ _ _ _ N Z Px) as (r1 & E1 & R1). rewrite E1. cbn [bind].
  rewrite Ey. cbn [bind]. destruct (op2_covers K _ _ B (plus K) _ _ _ _ N R1 Py) as (r2 & E2 & R2). rewrite E2. cbn [bind].
  rewrite Ez. cbn [bind]. destruct (op2_covers K _ _ B (plus K) _ _ _ _ N R2 Pz) as (r3 & E3 & R3). rewrite E3. cbn [bind].
  exists r3. split; [reflexivity|]. split.
  - eapply covers_ext; [exact R3|]. intros e _. cbv beta. ring.
  - intros H. destruct r3 as [r|x]; [eauto|]. exfalso.
    apply op2_num in E3. destruct E3 as (y2 & z2 & -> & -> & _).
    apply op2_num in E2. destruct E2 as (y1 & z1 & -> & -> & _).
    apply op2_num in E1. destruct E1 as (y0 & z0 & _ & -> & _).
    destruct H as [[H1 H2]|[[H1 H2]|[H1 H2]]]; [destruct (Sx H1 H2)|destruct (Sy H1 H2)|destruct (Sz H1 H2)]; discriminate.
Qed.

(** ** Slicing a vector *)

Lemma xyz_wf ty (x y z : operand F) : op_wf x -> op_wf y -> op_wf z -> vec_wf (xyz ty x y z).
Proof.
  intros Wx Wy Wz. constructor; [repeat constructor; simpl; intuition discriminate|].
  intros c t [E|[E|[E|[]]]]; injection E as <- <-; constructor; assumption.
Qed.

Lemma slice_vector B ty (x y z : operand F) it : NoDup (dkeys B) -> halves it ->
  covers [] B x (op_at x) -> covers [] B y (op_at y) -> covers [] B z (op_at z) ->
  exists x' y' z', vec_getitem (xyz ty x y z) (map (fun kv => (fst kv, Leaf (snd kv))) it) = Ok (xyz ty x' y' z') /\
    covers [] (shrunk B (dkeys it)) x' (fun e => op_at x (moved it e)) /\
    covers [] (shrunk B (dkeys it)) y' (fun e => op_at y (moved it e)) /\
    covers [] (shrunk B (dkeys it)) z' (fun e => op_at z (moved it e)).
Proof.
  intros N H Cx Cy Cz. change (map (fun kv : string * item => (fst kv, Leaf (snd kv))) it) with (plain it).
  assert (W : vec_wf (xyz ty x y z)) by (apply xyz_wf; [apply Cx|apply Cy|apply Cz]).
  assert (G : forall o : operand F, covers [] B o (op_at o) -> forall a, o = OpArr a ->
    exists r, getitem a it = Ok r /\ covers [] (shrunk B (dkeys it)) (OpArr r) (fun e => op_at o (moved it e))).
  { intros o C a ->. exact (slice_covers [] B a _ it N H C). }
  destruct (vec_getitem_success (xyz ty x y z) (plain it) W (plain_suits _ _)) as (r & E).
  { intros p a d L Pd. apply plain_at in Pd. subst d.
    assert (Q : OpArr a = x \/ OpArr a = y \/ OpArr a = z).
    { assert (Z := leaf_In _ _ _ L). simpl in Z. intuition. }
    destruct Q as [Q|[Q|Q]]; symmetry in Q; [destruct (G x Cx a Q) as (r & Er & _)|destruct (G y Cy a Q) as (r & Er & _)|destruct (G z Cz a Q) as (r & Er & _)]; eauto. }
  destruct (vec_getitem_spec _ _ _ (plain_suits _ _) E) as [Kd Ix].
  assert (P : forall c (o : operand F), leaf_at (xyz ty x y z) [c] = Some o -> covers [] B o (op_at o) ->
    exists o', leaf_at r [c] = Some o' /\ covers [] (shrunk B (dkeys it)) o' (fun e => op_at o (moved it e))).
  { intros c o L C. specialize (Ix [c]). rewrite L in Ix. destruct o as [a|q].
    - destruct Ix as (d & b & Pd & Eb & Lb). apply plain_at in Pd. subst d. exists (OpArr b). split; [exact Lb|].
      destruct (G _ C a eq_refl) as (b' & Eb' & Cb). rewrite Eb in Eb'. injection Eb' as <-. exact Cb.
    - exists (OpNum q). split; [exact Ix|]. apply (covers_num (shrunk B (dkeys it)) q). }
  destruct (P "x"%string x eq_refl Cx) as (x' & Lx & Qx).
  destruct (P "y"%string y eq_refl Cy) as (y' & Ly & Qy).
  destruct (P "z"%string z eq_refl Cz) as (z' & Lz & Qz).
  exists x', y', z'. rewrite E. split; [|auto]. f_equal.
  specialize (Kd []). destruct r as [l|ty' cs]; [discriminate|]. simpl in Kd. injection Kd as -> Kc.
  destruct cs as [|[c1 t1] [|[c2 t2] [|[c3 t3] [|? ?]]]]; try discriminate. simpl in Kc. injection Kc as -> -> ->.
  simpl in Lx, Ly, Lz.
  destruct t1 as [l1|]; [|discriminate]. destruct t2 as [l2|]; [|discriminate]. destruct t3 as [l3|]; [|discriminate].
  injection Lx as ->. injection Ly as ->. injection Lz as ->. reflexivity.
Qed.
End Volume.

Lemma covers_shape {A} l B B' (o : operand A) f : same_shape B B' -> covers l B o f -> covers l B' o f.
Proof.
  intros S (W & Sb & L & V). split; [exact W|]. split; [intros ax n H; now apply S, Sb|]. split; [exact L|].
  intros e I. apply V. intros ax n H. now apply I, S.
Qed.

Lemma shrunk_same B l l' : (forall ax, In ax l <-> In ax l') -> shrunk B l = shrunk B l'.
Proof.
  intros H. unfold shrunk. apply map_ext. intros [ax n]. cbn [fst snd]. f_equal.
  destruct (smem ax l) eqn:E, (smem ax l') eqn:E'; try reflexivity.
  - apply smem_In in E. apply smem_false in E'. exfalso. now apply E', H.
  - apply smem_false in E. apply smem_In in E'. exfalso. now apply E, H.
Qed.

Lemma shrunk_twice B l l' : (forall ax, In ax l -> In ax l' -> False) -> shrunk (shrunk B l) l' = shrunk B (l ++ l').
Proof.
  intros H. unfold shrunk. rewrite map_map. apply map_ext. intros [ax n]. cbn [fst snd]. f_equal.
  assert (E : smem ax (l ++ l') = smem ax l || smem ax l').
  { destruct (smem ax (l ++ l')) eqn:Q; symmetry.
    - apply smem_In, in_app_or in Q. apply orb_true_iff. rewrite !smem_In. exact Q.
    - apply smem_false in Q. apply orb_false_iff. rewrite !smem_false. split; intros Z; apply Q, in_or_app; auto. }
  rewrite E. destruct (smem ax l) eqn:E1, (smem ax l') eqn:E2; simpl; try reflexivity.
  apply smem_In in E1, E2. destruct (H ax E1 E2).
Qed.

Section Cells.
Context {F : Type} (K : arith F) (FK : is_field K).
Let Fth : field_theory (zero K) (one K) (plus K) (times K) (minus K) (neg K) (over K) (over K (one K)) eq := proj1 FK.
Add Field Kf : Fth.

(** a vector whose point at [e] is [P e] *)
Definition traces (B : shape) (ty : string) (v : vec F) (P : env -> F * F * F) : Prop :=
  exists x y z, v = xyz ty x y z /\ covers [] B x (fun e => fst (fst (P e))) /\
    covers [] B y (fun e => snd (fst (P e))) /\ covers [] B z (fun e => snd (P e)).

Definition respects {A} (f : env -> A) : Prop := forall e e', (forall ax, e ax = e' ax) -> f e = f e'.

Lemma det_cross p q r : det K p q r =
  let '(p1, p2, p3) := p in let '(c1, c2, c3) := crossed K q r in plus K (plus K (times K p1 c1) (times K p2 c2)) (times K p3 c3).
Proof. destruct p as [[p1 p2] p3], q as [[q1 q2] q3], r as [[r1 r2] r3]. unfold det, crossed. ring. Qed.

Lemma triangle_step B ty a3 v1 v2 v3 P (t : env -> env * env * env) acc R : NoDup (dkeys B) ->
  traces B ty v1 (fun e => P (fst (fst (t e)))) -> traces B ty v2 (fun e => P (snd (fst (t e)))) ->
  traces B ty v3 (fun e => P (snd (t e))) ->
  respects (fun e => det K (P (fst (fst (t e)))) (P (snd (fst (t e)))) (P (snd (t e)))) ->
  covers [] (shrunk B [a3]) acc R ->
  (exists o, add_triangle K a3 acc (v1, v2, v3) = Ok o /\
     covers [] (shrunk B [a3]) o (fun e =>
       let D e := det K (P (fst (fst (t e)))) (P (snd (fst (t e)))) (P (snd (t e))) in plus K (minus K (R e) (D e)) (D (next a3 e)))) \/
  (add_triangle K a3 acc (v1, v2, v3) = Err IndexError /\ ~ spread K B P t).
Proof.
  intros N (x1 & y1 & z1 & -> & X1 & Y1 & Z1) (x2 & y2 & z2 & -> & X2 & Y2 & Z2) (x3 & y3 & z3 & -> & X3 & Y3 & Z3) Ex Ca.
  unfold add_triangle.
  destruct (cross_covers K FK B ty _ _ _ _ _ _ _ _ _ _ _ _ N X2 Y2 Z2 X3 Y3 Z3) as (cx & cy & cz & Ec & Cx & Cy & Cz).
  rewrite Ec. cbn [bind].
  destruct (dot3_covers K FK B ty ty _ _ _ _ _ _ _ _ _ _ _ _ N X1 Y1 Z1 Cx Cy Cz) as (vol & Ev & Cv & Sv).
  rewrite Ev. cbn [bind].
  assert (N' : NoDup (dkeys (shrunk B [a3]))) by now rewrite shrunk_keys.
  destruct vol as [a|q].
  - left. cbn [op_getitem].
    destruct (slice_covers [] B a _ [(a3, ItSlice lower)] N (halves_one a3 lower (or_introl eq_refl)) Cv) as (lo & El & Cl).
    destruct (slice_covers [] B a _ [(a3, ItSlice upper)] N (halves_one a3 upper (or_intror eq_refl)) Cv) as (hi & Eh & Ch).
    rewrite El. cbn [bind]. cbn [dkeys map fst] in Cl, Ch.
    destruct (op2_covers K _ _ _ (minus K) _ _ _ _ N' Ca Cl) as (r1 & E1 & C1). rewrite E1. cbn [bind].
    rewrite Eh. cbn [bind].
    destruct (op2_covers K _ _ _ (plus K) _ _ _ _ N' C1 Ch) as (r2 & E2 & C2). rewrite E2.
    exists r2. split; [reflexivity|]. eapply covers_ext; [exact C2|]. intros e I. cbv beta zeta.
    rewrite <- (Ex _ e (moved_l a3 e)), <- (Ex _ _ (moved_u a3 e)). cbv beta.
    set (m1 := moved [(a3, ItSlice lower)] e). set (m2 := moved [(a3, ItSlice upper)] e).
    rewrite !det_cross.
    destruct (P (fst (fst (t m1)))) as [[p1 p2] p3], (P (snd (fst (t m1)))) as [[q1 q2] q3], (P (snd (t m1))) as [[s1 s2] s3].
    destruct (P (fst (fst (t m2)))) as [[u1 u2] u3], (P (snd (fst (t m2)))) as [[w1 w2] w3], (P (snd (t m2))) as [[k1 k2] k3].
    cbn [fst snd crossed]. ring.
  - right. split; [reflexivity|]. intros (i & e & e' & Ie & Ie' & H1 & H2).
    assert (Z : exists r, OpNum q = OpArr r); [|destruct Z; discriminate]. apply Sv.
    assert (H2' : nth i (coordinates (crossed K (P (snd (fst (t e')))) (P (snd (t e'))))) (zero K) <> zero K) by exact H2.
    revert H1 H2'. clear H2. 
    assert (G : forall (f g : env -> F), f e <> zero K -> g e' <> zero K -> somewhere K B f /\ somewhere K B g).
    { intros f g Hf Hg. split; [exists e|exists e']; auto. }
    destruct i as [|[|[|i]]]; intros H1 H2; [left|right; left|right; right|]; try apply G; revert H1 H2;
      destruct (P (fst (fst (t e)))) as [[p1 p2] p3], (P (snd (fst (t e')))) as [[q1 q2] q3], (P (snd (t e'))) as [[s1 s2] s3];
      simpl; try (intros H1 H2; assumption).
    intros H1. destruct i; now destruct H1.
Qed.

Definition corner2 (a1 a2 : string) (k : nat) (e : env) : env := nth k (around a1 a2 e) e.

Lemma face_traces sh ty (x y z : operand F) a1 a2 : NoDup (dkeys sh) -> a1 <> a2 ->
  op_wf x -> op_wf y -> op_wf z -> sub_shape (op_shape x) sh -> sub_shape (op_shape y) sh -> sub_shape (op_shape z) sh ->
  exists f0 f1 f2 f3, mapM (fun it => vec_getitem (xyz ty x y z) (map (fun kv => (fst kv, Leaf (snd kv))) it)) (corner_items a1 a2) = Ok [f0; f1; f2; f3] /\
    traces (shrunk sh [a1; a2]) ty f0 (fun e => point3 x y z e) /\
    traces (shrunk sh [a1; a2]) ty f1 (fun e => point3 x y z (next a1 e)) /\
    traces (shrunk sh [a1; a2]) ty f2 (fun e => point3 x y z (next a2 (next a1 e))) /\
    traces (shrunk sh [a1; a2]) ty f3 (fun e => point3 x y z (next a2 e)).
Proof.
  intros N D Wx Wy Wz Sx Sy Sz.
  assert (C : forall o : operand F, op_wf o -> sub_shape (op_shape o) sh -> covers [] sh o (op_at o)).
  { intros o W S. split; [exact W|]. split; [exact S|]. split; [intros ax []|reflexivity]. }
  assert (G : forall s t (mv : env -> env), s = lower \/ s = upper -> t = lower \/ t = upper ->
    (forall e ax, moved [(a1, ItSlice s); (a2, ItSlice t)] e ax = mv e ax) ->
    exists f, vec_getitem (xyz ty x y z) (map (fun kv => (fst kv, Leaf (snd kv))) [(a1, ItSlice s); (a2, ItSlice t)]) = Ok f /\
      traces (shrunk sh [a1; a2]) ty f (fun e => point3 x y z (mv e))).
  { intros s t mv Hs Ht Hm.
    destruct (slice_vector sh ty x y z [(a1, ItSlice s); (a2, ItSlice t)] N (halves_two a1 a2 s t D Hs Ht) (C x Wx Sx) (C y Wy Sy) (C z Wz Sz))
      as (x' & y' & z' & E & Cx & Cy & Cz). exists (xyz ty x' y' z'). split; [exact E|].
    exists x', y', z'. split; [reflexivity|]. cbn [dkeys map fst] in Cx, Cy, Cz.
    split; [|split]; (eapply covers_ext; [eassumption|]); intros e _; apply op_at_ext, Hm. }
  rewrite corner_items_eq by exact D.
  destruct (G lower lower (fun e => e)) as (f0 & E0 & T0); [auto|auto|intros; apply moved_ll|].
  destruct (G upper lower (next a1)) as (f1 & E1 & T1); [auto|auto|intros; now apply moved_ul|].
  destruct (G upper upper (fun e => next a2 (next a1 e))) as (f2 & E2 & T2); [auto|auto|intros; now apply moved_uu|].
  destruct (G lower upper (next a2)) as (f3 & E3 & T3); [auto|auto|intros; now apply moved_lu|].
  exists f0, f1, f2, f3. split; [cbn [mapM]; rewrite E0, E1, E2, E3; reflexivity|]. auto.
Qed.

Lemma point3_ext (x y z : operand F) : respects (point3 x y z).
Proof. intros e e' H. unfold point3. now rewrite !(op_at_ext _ e e' H). Qed.

Lemma next_ext ax e e' : (forall b, e b = e' b) -> forall b, next ax e b = next ax e' b.
Proof. intros H b. unfold next, set_env. now rewrite !H. Qed.

Definition tri (a1 a2 : string) (k : nat) (e : env) : env * env * env := nth k (triangles a1 a2 e) (e, e, e).

Definition sheet (x y z : operand F) (a1 a2 : string) (e : env) : F := enclosed K (point3 x y z) (triangles a1 a2 e).

Lemma face_step sh ty (x y z : operand F) a1 a2 a3 acc R : NoDup (dkeys sh) -> a1 <> a2 -> a2 <> a3 -> a3 <> a1 ->
  op_wf x -> op_wf y -> op_wf z -> sub_shape (op_shape x) sh -> sub_shape (op_shape y) sh -> sub_shape (op_shape z) sh ->
  covers [] (shrunk sh [a1; a2; a3]) acc R ->
  (exists o, add_face K (xyz ty x y z) acc (a1, a2, a3) = Ok o /\
     covers [] (shrunk sh [a1; a2; a3]) o (fun e => plus K (minus K (R e) (sheet x y z a1 a2 e)) (sheet x y z a1 a2 (next a3 e)))) \/
  (add_face K (xyz ty x y z) acc (a1, a2, a3) = Err IndexError /\
     exists k, k < 2 /\ ~ spread K (shrunk sh [a1; a2]) (point3 x y z) (tri a1 a2 k)).
Proof.
  intros N D12 D23 D31 Wx Wy Wz Sx Sy Sz Ca.
  assert (E3 : shrunk sh [a1; a2; a3] = shrunk (shrunk sh [a1; a2]) [a3]).
  { rewrite shrunk_twice; [reflexivity|]. intros ax [<- |[<- |[]]] [E|[]]; congruence. }
  rewrite E3 in *.
  destruct (face_traces sh ty x y z a1 a2 N D12 Wx Wy Wz Sx Sy Sz) as (f0 & f1 & f2 & f3 & Ef & T0 & T1 & T2 & T3).
  unfold add_face. rewrite Ef. cbn [bind foldM].
  assert (N2 : NoDup (dkeys (shrunk sh [a1; a2]))) by now rewrite shrunk_keys.
  assert (Rx : forall k, k < 2 -> respects (fun e => det K (point3 x y z (fst (fst (tri a1 a2 k e)))) (point3 x y z (snd (fst (tri a1 a2 k e)))) (point3 x y z (snd (tri a1 a2 k e))))).
  { intros k Hk e e' He. destruct k as [|[|k]]; [| |lia]; unfold tri, triangles; cbn [nth fst snd];
      rewrite !(point3_ext x y z _ _ He), ?(point3_ext x y z _ _ (next_ext a1 _ _ He)), ?(point3_ext x y z _ _ (next_ext a2 _ _ He)),
              !(point3_ext x y z _ _ (next_ext a2 _ _ (next_ext a1 _ _ He))); reflexivity. }
  destruct (triangle_step (shrunk sh [a1; a2]) ty a3 f0 f1 f2 (point3 x y z) (tri a1 a2 0) acc R N2 T0 T1 T2 (Rx 0 ltac:(lia)) Ca)
    as [(o1 & E1 & C1)|[E1 S1]]; rewrite E1; cbn [bind].
  2:{ right. split; [reflexivity|]. exists 0. split; [lia|exact S1]. }
  destruct (triangle_step (shrunk sh [a1; a2]) ty a3 f2 f3 f0 (point3 x y z) (tri a1 a2 1) o1 _ N2 T2 T3 T0 (Rx 1 ltac:(lia)) C1)
    as [(o2 & E2 & C2)|[E2 S2]]; rewrite E2; cbn [bind].
  2:{ right. split; [reflexivity|]. exists 1. split; [lia|exact S2]. }
  left. exists o2. split; [reflexivity|]. eapply covers_ext; [exact C2|]. intros e _. cbv beta zeta. unfold sheet, enclosed, triangles, tri, total.
  cbn [map nth fst snd fold_right triangles]. ring.
Qed.

Lemma xyz_shape ty (x y z : operand F) sh : op_wf x -> op_wf y -> op_wf z -> vec_shape (xyz ty x y z) = Ok sh -> NoDup (dkeys sh).
Proof.
  intros Wx Wy Wz H.
  assert (E : broadcast_shapes [op_shape x; op_shape y; op_shape z] = Ok sh).
  { rewrite <- H. destruct x, y, z; reflexivity. }
  assert (Nd : Forall (fun s => NoDup (dkeys s)) [op_shape x; op_shape y; op_shape z]) by (repeat constructor; now apply op_shape_NoDup).
  apply (broadcast_shapes_ok _ _ Nd E).
Qed.

Lemma enclosed_app P l l' : enclosed K P (l ++ l') = plus K (enclosed K P l) (enclosed K P l').
Proof. unfold enclosed. now rewrite map_app, total_app. Qed.

Lemma enclosed_flip P l : enclosed K P (map flip l) = neg K (enclosed K P l).
Proof.
  unfold enclosed. induction l as [|[[p q] r] l IH]; cbn [map total fold_right flip] in *; [unfold total; simpl; ring|].
  change (fold_right (plus K) (zero K)) with (total K). rewrite IH.
  replace (det K (P r) (P q) (P p)) with (neg K (det K (P p) (P q) (P r))); [unfold total; simpl; ring|].
  destruct (P p) as [[p1 p2] p3], (P q) as [[q1 q2] q3], (P r) as [[r1 r2] r3]. unfold det. ring.
Qed.

Lemma volume_value ty (x y z : operand F) sh a b c : op_wf x -> op_wf y -> op_wf z -> vec_shape (xyz ty x y z) = Ok sh ->
  sub_shape (op_shape x) sh -> sub_shape (op_shape y) sh -> sub_shape (op_shape z) sh ->
  In a (dkeys sh) -> In b (dkeys sh) -> In c (dkeys sh) -> a <> b -> b <> c -> c <> a ->
  (exists o, volume_cell_3d K (xyz ty x y z) (Some [a; b; c]) = Ok o /\ op_wf o /\
     sub_shape (op_shape o) (shrunk sh [a; b; c]) /\
     forall e, inside e (shrunk sh [a; b; c]) -> op_at o e = over K (enclosed K (point3 x y z) (surface a b c e)) (six_times K (one K))) \/
  (volume_cell_3d K (xyz ty x y z) (Some [a; b; c]) = Err IndexError /\
     exists a1 a2 a3 k, In (a1, a2, a3) (cyclic a b c) /\ k < 2 /\
       ~ spread K (shrunk sh [a1; a2]) (point3 x y z) (fun e => nth k (triangles a1 a2 e) (e, e, e))).
Proof.
  intros Wx Wy Wz Sh Sx Sy Sz Ha Hb Hc D1 D2 D3.
  assert (N := xyz_shape ty x y z sh Wx Wy Wz Sh).
  unfold volume_cell_3d. rewrite Sh. cbn [bind forallb].
  rewrite (proj2 (smem_In a _) Ha), (proj2 (smem_In b _) Hb), (proj2 (smem_In c _) Hc). cbn [andb bind foldM].
  assert (Z : covers [] (shrunk sh [a; b; c]) (OpNum (zero K)) (fun _ => zero K)) by apply covers_num.
  assert (Q1 : shrunk sh [b; c; a] = shrunk sh [a; b; c]) by (apply shrunk_same; simpl; tauto).
  assert (Q2 : shrunk sh [c; a; b] = shrunk sh [a; b; c]) by (apply shrunk_same; simpl; tauto).
  destruct (face_step sh ty x y z a b c _ _ N D1 D2 D3 Wx Wy Wz Sx Sy Sz Z) as [(o1 & E1 & C1)|(E1 & k & Hk & S1)]; rewrite E1; cbn [bind].
  2:{ right. split; [reflexivity|]. exists a, b, c, k. split; [simpl; tauto|]. auto. }
  rewrite <- Q1 in C1.
  destruct (face_step sh ty x y z b c a _ _ N D2 D3 D1 Wx Wy Wz Sx Sy Sz C1) as [(o2 & E2 & C2)|(E2 & k & Hk & S2)]; rewrite E2; cbn [bind].
  2:{ right. split; [reflexivity|]. exists b, c, a, k. split; [simpl; tauto|]. auto. }
  rewrite Q1, <- Q2 in C2.
  destruct (face_step sh ty x y z c a b _ _ N D3 D1 D2 Wx Wy Wz Sx Sy Sz C2) as [(o3 & E3 & C3)|(E3 & k & Hk & S3)]; rewrite E3; cbn [bind].
  2:{ right. split; [reflexivity|]. exists c, a, b, k. split; [simpl; tauto|]. auto. }
  rewrite Q2 in C3. left.
  destruct (op2_covers K [] [] (shrunk sh [a; b; c]) (over K) o3 (OpNum (six K)) _ _ ltac:(now rewrite shrunk_keys) C3 (covers_num _ _)) as (o & E & W & S & _ & V).
  exists o. split; [exact E|]. split; [exact W|]. split; [exact S|]. intros e I. rewrite V by exact I. cbv beta.
  unfold six, six_times. f_equal. unfold surface, cyclic. cbn [flat_map]. rewrite !enclosed_app, !enclosed_flip. unfold sheet.
  replace (enclosed K (point3 x y z) []) with (zero K) by reflexivity. ring.
Qed.
End Cells.

(** ** The laws of the signed volume *)

Section VolumeLaws.
Context {F : Type} (K : arith F) (FK : is_field K).
Let Fth : field_theory (zero K) (one K) (plus K) (times K) (minus K) (neg K) (over K) (over K (one K)) eq := proj1 FK.
Add Field Kf5 : Fth.

Notation point := (F * F * F)%type.

(** the surface of a cell in terms of its corners *)
Definition box (p000 p100 p010 p110 p001 p101 p011 p111 : point) : F :=
  plus K (minus K (plus K (det K p001 p101 p111) (det K p111 p011 p001)) (plus K (det K p000 p100 p110) (det K p110 p010 p000)))
 (plus K (minus K (plus K (det K p100 p110 p111) (det K p111 p101 p100)) (plus K (det K p000 p010 p011) (det K p011 p001 p000)))
         (minus K (plus K (det K p010 p011 p111) (det K p111 p110 p010)) (plus K (det K p000 p001 p101) (det K p101 p100 p000)))).

Lemma next_comm a b e ax : a <> b -> next a (next b e) ax = next b (next a e) ax.
Proof. intros D. unfold next, set_env. names_cases; reflexivity. Qed.

Lemma enclosed_two P t1 t2 : enclosed K P [t1; t2] =
  plus K (let '(p, q, r) := t1 in det K (P p) (P q) (P r)) (let '(p, q, r) := t2 in det K (P p) (P q) (P r)).
Proof. unfold enclosed, total. cbn [map fold_right]. ring. Qed.

Lemma surface_box (P : env -> point) a b c e : respects P -> a <> b -> b <> c -> c <> a ->
  enclosed K P (surface a b c e) =
  box (P e) (P (next a e)) (P (next b e)) (P (next b (next a e))) (P (next c e)) (P (next c (next a e)))
      (P (next c (next b e))) (P (next c (next b (next a e)))).
Proof.
  intros R D1 D2 D3. unfold surface, cyclic. cbn [flat_map]. rewrite !(enclosed_app K FK), !(enclosed_flip K FK).
  replace (enclosed K P []) with (zero K) by reflexivity. unfold triangles. rewrite !enclosed_two.
  rewrite (R (next a (next c e)) (next c (next a e))) by (intros; apply next_comm; congruence).
  rewrite (R (next b (next c e)) (next c (next b e))) by (intros; apply next_comm; congruence).
  rewrite (R (next a (next b e)) (next b (next a e))) by (intros; apply next_comm; congruence).
  rewrite (R (next b (next a (next c e))) (next c (next b (next a e)))) by (intros; unfold next, set_env; names_cases; reflexivity).
  rewrite (R (next a (next c (next b e))) (next c (next b (next a e)))) by (intros; unfold next, set_env; names_cases; reflexivity).
  unfold box. ring.
Qed.

Lemma det_shift t p q r : det K (add3 K p t) (add3 K q t) (add3 K r t) =
  plus K (det K p q r) (plus K (det K t p q) (plus K (det K t q r) (det K t r p))).
Proof.
  destruct t as [[t1 t2] t3], p as [[p1 p2] p3], q as [[q1 q2] q3], r as [[r1 r2] r3]. unfold det, add3. ring.
Qed.

Lemma det_swap t p q : det K t q p = neg K (det K t p q).
Proof. destruct t as [[t1 t2] t3], p as [[p1 p2] p3], q as [[q1 q2] q3]. unfold det. ring. Qed.

Lemma box_shift t p000 p100 p010 p110 p001 p101 p011 p111 :
  box (add3 K p000 t) (add3 K p100 t) (add3 K p010 t) (add3 K p110 t) (add3 K p001 t) (add3 K p101 t) (add3 K p011 t) (add3 K p111 t) =
  box p000 p100 p010 p110 p001 p101 p011 p111.
Proof.
  unfold box. rewrite !det_shift.
  rewrite ?(det_swap t p000 p100), ?(det_swap t p000 p010), ?(det_swap t p000 p110), ?(det_swap t p000 p001), ?(det_swap t p000 p011), ?(det_swap t p000 p101),
    ?(det_swap t p100 p110), ?(det_swap t p100 p101), ?(det_swap t p100 p111), ?(det_swap t p010 p110), ?(det_swap t p010 p011), ?(det_swap t p010 p111),
    ?(det_swap t p001 p101), ?(det_swap t p001 p011), ?(det_swap t p001 p111), ?(det_swap t p110 p111), ?(det_swap t p101 p111), ?(det_swap t p011 p111).
  ring.
Qed.

Lemma det_linear u v w p q r : det K (linear3 K u v w p) (linear3 K u v w q) (linear3 K u v w r) = times K (det K u v w) (det K p q r).
Proof.
  destruct u as [[u1 u2] u3], v as [[v1 v2] v3], w as [[w1 w2] w3], p as [[p1 p2] p3], q as [[q1 q2] q3], r as [[r1 r2] r3].
  unfold det, linear3. ring.
Qed.

Lemma box_linear u v w p000 p100 p010 p110 p001 p101 p011 p111 :
  let f := linear3 K u v w in
  box (f p000) (f p100) (f p010) (f p110) (f p001) (f p101) (f p011) (f p111) =
  times K (det K u v w) (box p000 p100 p010 p110 p001 p101 p011 p111).
Proof. cbv zeta. unfold box. rewrite !det_linear. ring. Qed.

Lemma box_parallel p u v w :
  box p (add3 K p u) (add3 K p v) (add3 K (add3 K p u) v) (add3 K p w) (add3 K (add3 K p u) w) (add3 K (add3 K p v) w) (add3 K (add3 K (add3 K p u) v) w) =
  six_times K (det K u v w).
Proof.
  assert (E : forall q : point, q = add3 K (add3 K q (let '(p1, p2, p3) := p in (neg K p1, neg K p2, neg K p3))) p).
  { intros [[q1 q2] q3]. destruct p as [[p1 p2] p3]. unfold add3. f_equal; [f_equal|]; ring. }
  rewrite <- (box_shift (let '(p1, p2, p3) := p in (neg K p1, neg K p2, neg K p3))).
  destruct u as [[u1 u2] u3], v as [[v1 v2] v3], w as [[w1 w2] w3], p as [[p1 p2] p3].
  set (n := (neg K p1, neg K p2, neg K p3)).
  replace (add3 K (p1, p2, p3) n) with (zero K, zero K, zero K) by (unfold add3, n; f_equal; [f_equal|]; ring).
  replace (add3 K (add3 K (p1, p2, p3) (u1, u2, u3)) n) with (u1, u2, u3) by (unfold add3, n; f_equal; [f_equal|]; ring).
  replace (add3 K (add3 K (p1, p2, p3) (v1, v2, v3)) n) with (v1, v2, v3) by (unfold add3, n; f_equal; [f_equal|]; ring).
  replace (add3 K (add3 K (p1, p2, p3) (w1, w2, w3)) n) with (w1, w2, w3) by (unfold add3, n; f_equal; [f_equal|]; ring).
  replace (add3 K (add3 K (add3 K (p1, p2, p3) (u1, u2, u3)) (v1, v2, v3)) n) with (plus K u1 v1, plus K u2 v2, plus K u3 v3) by (unfold add3, n; f_equal; [f_equal|]; ring).
  replace (add3 K (add3 K (add3 K (p1, p2, p3) (u1, u2, u3)) (w1, w2, w3)) n) with (plus K u1 w1, plus K u2 w2, plus K u3 w3) by (unfold add3, n; f_equal; [f_equal|]; ring).
  replace (add3 K (add3 K (add3 K (p1, p2, p3) (v1, v2, v3)) (w1, w2, w3)) n) with (plus K v1 w1, plus K v2 w2, plus K v3 w3) by (unfold add3, n; f_equal; [f_equal|]; ring).
  replace (add3 K (add3 K (add3 K (add3 K (p1, p2, p3) (u1, u2, u3)) (v1, v2, v3)) (w1, w2, w3)) n)
    with (plus K (plus K u1 v1) w1, plus K (plus K u2 v2) w2, plus K (plus K u3 v3) w3) by (unfold add3, n; f_equal; [f_equal|]; ring).
  unfold box, six_times, det. ring.
Qed.

(** ** The sum over a grid *)

Lemma enclosed_flat_map P (g : nat -> list (env * env * env)) n : forall s,
  enclosed K P (flat_map g (seq s n)) = sum_to K n (fun i => enclosed K P (g (s + i))).
Proof.
  induction n as [|n IH]; intros s; [reflexivity|]. cbn [seq flat_map]. rewrite (enclosed_app K FK), IH, sum_to_S.
  replace (s + 0) with s by lia. f_equal. apply sum_to_ext. intros i _. f_equal. f_equal. lia.
Qed.

Definition place3 (a b c : string) (e : env) (i j k : nat) : env := set_env (set_env (set_env e a i) b j) c k.

Lemma sheet_ext P a1 a2 e e' : respects P -> (forall ax, e ax = e' ax) ->
  enclosed K P (triangles a1 a2 e) = enclosed K P (triangles a1 a2 e').
Proof.
  intros R H. unfold triangles. rewrite !enclosed_two.
  now rewrite (R e e' H), (R _ _ (next_ext a1 e e' H)), (R _ _ (next_ext a2 e e' H)), (R _ _ (next_ext a2 _ _ (next_ext a1 e e' H))).
Qed.

Lemma grid_volume (P : env -> point) a b c n m l e : respects P -> a <> b -> b <> c -> c <> a ->
  sum_to K n (fun i => sum_to K m (fun j => sum_to K l (fun k => enclosed K P (surface a b c (place3 a b c e i j k))))) =
  enclosed K P (grid_surface a b c n m l e).
Proof.
  intros R D1 D2 D3.
  set (Sab := fun i j k => enclosed K P (triangles a b (place3 a b c e i j k))).
  set (Sbc := fun i j k => enclosed K P (triangles b c (place3 a b c e i j k))).
  set (Sca := fun i j k => enclosed K P (triangles c a (place3 a b c e i j k))).
  transitivity (sum_to K n (fun i => sum_to K m (fun j => sum_to K l (fun k =>
     plus K (minus K (Sab i j (S k)) (Sab i j k)) (plus K (minus K (Sbc (S i) j k) (Sbc i j k)) (minus K (Sca i (S j) k) (Sca i j k))))))).
  { apply sum_to_ext. intros i _. apply sum_to_ext. intros j _. apply sum_to_ext. intros k _.
    unfold surface, cyclic. cbn [flat_map]. rewrite !(enclosed_app K FK), !(enclosed_flip K FK).
    replace (enclosed K P []) with (zero K) by reflexivity.
    rewrite (sheet_ext P a b (next c (place3 a b c e i j k)) (place3 a b c e i j (S k)) R) by (intros; unfold place3, next, set_env; names_cases; reflexivity).
    rewrite (sheet_ext P b c (next a (place3 a b c e i j k)) (place3 a b c e (S i) j k) R) by (intros; unfold place3, next, set_env; names_cases; reflexivity).
    rewrite (sheet_ext P c a (next b (place3 a b c e i j k)) (place3 a b c e i (S j) k) R) by (intros; unfold place3, next, set_env; names_cases; reflexivity).
    unfold Sab, Sbc, Sca. ring. }
  transitivity (plus K (sum_to K n (fun i => sum_to K m (fun j => minus K (Sab i j l) (Sab i j 0))))
               (plus K (sum_to K m (fun j => sum_to K l (fun k => minus K (Sbc n j k) (Sbc 0 j k))))
                       (sum_to K l (fun k => sum_to K n (fun i => minus K (Sca i m k) (Sca i 0 k)))))).
  { rewrite (sum_to_ext K n _ (fun i => plus K (sum_to K m (fun j => minus K (Sab i j l) (Sab i j 0)))
       (plus K (sum_to K m (fun j => sum_to K l (fun k => minus K (Sbc (S i) j k) (Sbc i j k))))
               (sum_to K l (fun k => minus K (Sca i m k) (Sca i 0 k)))))).
    2:{ intros i _.
        rewrite (sum_to_ext K m _ (fun j => plus K (minus K (Sab i j l) (Sab i j 0))
          (plus K (sum_to K l (fun k => minus K (Sbc (S i) j k) (Sbc i j k))) (sum_to K l (fun k => minus K (Sca i (S j) k) (Sca i j k)))))).
        2:{ intros j _. rewrite (sum_to_plus K FK), (telescope K FK l (fun k => Sab i j k)), (sum_to_plus K FK). reflexivity. }
        rewrite !(sum_to_plus K FK). f_equal. f_equal.
        rewrite (sum_to_swap K FK m l). apply sum_to_ext. intros k _. exact (telescope K FK m (fun j => Sca i j k)). }
    rewrite !(sum_to_plus K FK). f_equal. f_equal.
    - rewrite (sum_to_swap K FK n m). apply sum_to_ext. intros j _.
      rewrite (sum_to_swap K FK n l). apply sum_to_ext. intros k _. exact (telescope K FK n (fun i => Sbc i j k)).
    - apply (sum_to_swap K FK). }
  unfold grid_surface. cbn [flat_map]. rewrite !(enclosed_app K FK).
  replace (enclosed K P []) with (zero K) by reflexivity.
  assert (G : forall a1 n1 a2 n2 a3 n3 (T : nat -> nat -> nat -> F),
    (forall i j k, enclosed K P (triangles a1 a2 (set_env (set_env (set_env e a1 i) a2 j) a3 k)) = T i j k) ->
    enclosed K P (flat_map (fun i => flat_map (fun j =>
      map flip (triangles a1 a2 (set_env (set_env (set_env e a1 i) a2 j) a3 0)) ++ triangles a1 a2 (set_env (set_env (set_env e a1 i) a2 j) a3 n3)) (seq 0 n2)) (seq 0 n1)) =
    sum_to K n1 (fun i => sum_to K n2 (fun j => minus K (T i j n3) (T i j 0)))).
  { intros a1 n1 a2 n2 a3 n3 T HT. rewrite enclosed_flat_map. apply sum_to_ext. intros i _. cbn [Nat.add].
    rewrite enclosed_flat_map. apply sum_to_ext. intros j _. cbn [Nat.add].
    rewrite (enclosed_app K FK), (enclosed_flip K FK), !HT. ring. }
  rewrite (G a n b m c l Sab) by reflexivity.
  rewrite (G b m c l a n (fun j k i => Sbc i j k)).
  2:{ intros i j k. unfold Sbc. apply sheet_ext; [exact R|]. intros ax. unfold place3, set_env. names_cases; reflexivity. }
  rewrite (G c l a n b m (fun k i j => Sca i j k)).
  2:{ intros i j k. unfold Sca. apply sheet_ext; [exact R|]. intros ax. unfold place3, set_env. names_cases; reflexivity. }
  ring.
Qed.
End VolumeLaws.

(** ** In the form of the theorems *)

Section Laws.
Context {F : Type} (K : arith F) (FK : is_field K).
Let Fth : field_theory (zero K) (one K) (plus K) (times K) (minus K) (neg K) (over K) (over K (one K)) eq := proj1 FK.
Add Field Kf6 : Fth.

Lemma reads_gives B (o : operand F) f : gives B o f <-> reads B o f.
Proof. reflexivity. Qed.

Lemma self_reads B (o : operand F) : op_wf o -> fits_in (op_shape o) B -> reads B o (op_at o).
Proof. apply reads_self. Qed.

Lemma cross_value B ty (ax ay az bx by_ bz : operand F) : NoDup (dkeys B) ->
  Forall op_wf [ax; ay; az; bx; by_; bz] -> Forall (fun o => fits_in (op_shape o) B) [ax; ay; az; bx; by_; bz] ->
  exists cx cy cz, cross K (xyz ty ax ay az) (xyz ty bx by_ bz) = Ok (xyz ty cx cy cz) /\
    Forall op_wf [cx; cy; cz] /\ Forall (fun o => fits_in (op_shape o) B) [cx; cy; cz] /\
    forall e, inside e B -> point3 cx cy cz e = crossed K (point3 ax ay az e) (point3 bx by_ bz e).
Proof.
  intros N W S. inversion W as [|? ? W1 W']; subst. inversion W' as [|? ? W2 W'']; subst. inversion W'' as [|? ? W3 W3']; subst.
  inversion W3' as [|? ? W4 W4']; subst. inversion W4' as [|? ? W5 W5']; subst. inversion W5' as [|? ? W6 _]; subst.
  inversion S as [|? ? S1 S']; subst. inversion S' as [|? ? S2 S'']; subst. inversion S'' as [|? ? S3 S3']; subst.
  inversion S3' as [|? ? S4 S4']; subst. inversion S4' as [|? ? S5 S5']; subst. inversion S5' as [|? ? S6 _]; subst.
  destruct (cross_reads K FK B ty ax ay az bx by_ bz _ _ _ _ _ _ N (self_reads B _ W1 S1) (self_reads B _ W2 S2) (self_reads B _ W3 S3)
    (self_reads B _ W4 S4) (self_reads B _ W5 S5) (self_reads B _ W6 S6)) as (cx & cy & cz & E & (Wx & Fx & Vx) & (Wy & Fy & Vy) & (Wz & Fz & Vz)).
  exists cx, cy, cz. split; [exact E|]. split; [auto|]. split; [auto|]. intros e I. unfold point3, crossed. now rewrite Vx, Vy, Vz.
Qed.

Lemma dot3_value B ty ty' (ax ay az bx by_ bz : operand F) : NoDup (dkeys B) ->
  Forall op_wf [ax; ay; az; bx; by_; bz] -> Forall (fun o => fits_in (op_shape o) B) [ax; ay; az; bx; by_; bz] ->
  exists o, vec_dot K (xyz ty ax ay az) (xyz ty' bx by_ bz) = Ok o /\ gives B o (fun e => scalar3 K (point3 ax ay az e) (point3 bx by_ bz e)).
Proof.
  intros N W S. inversion W as [|? ? W1 W']; subst. inversion W' as [|? ? W2 W'']; subst. inversion W'' as [|? ? W3 W3']; subst.
  inversion W3' as [|? ? W4 W4']; subst. inversion W4' as [|? ? W5 W5']; subst. inversion W5' as [|? ? W6 _]; subst.
  inversion S as [|? ? S1 S']; subst. inversion S' as [|? ? S2 S'']; subst. inversion S'' as [|? ? S3 S3']; subst.
  inversion S3' as [|? ? S4 S4']; subst. inversion S4' as [|? ? S5 S5']; subst. inversion S5' as [|? ? S6 _]; subst.
  exact (dot3_reads K FK B ty ty' ax ay az bx by_ bz _ _ _ _ _ _ N (self_reads B _ W1 S1) (self_reads B _ W2 S2) (self_reads B _ W3 S3)
    (self_reads B _ W4 S4) (self_reads B _ W5 S5) (self_reads B _ W6 S6)).
Qed.

Ltac six_parts W := inversion W as [|? ? ?W1 ?W']; subst.

Lemma cross_laws B ty (ax ay az bx by_ bz : operand F) : NoDup (dkeys B) ->
  Forall op_wf [ax; ay; az; bx; by_; bz] -> Forall (fun o => fits_in (op_shape o) B) [ax; ay; az; bx; by_; bz] ->
  let a := xyz ty ax ay az in let b := xyz ty bx by_ bz in
  exists c d ca cb aa bb ab cc, cross K a b = Ok c /\ cross K b a = Ok d /\
    vec_dot K c a = Ok ca /\ vec_dot K c b = Ok cb /\
    vec_dot K a a = Ok aa /\ vec_dot K b b = Ok bb /\ vec_dot K a b = Ok ab /\ vec_dot K c c = Ok cc /\
    forall e, inside e B ->
      op_at ca e = zero K /\ op_at cb e = zero K /\
      op_at cc e = minus K (times K (op_at aa e) (op_at bb e)) (times K (op_at ab e) (op_at ab e)) /\
      forall n o o', part c n o -> part d n o' -> op_at o' e = neg K (op_at o e).
Proof.
  intros N W S. cbv zeta.
  assert (W' : Forall op_wf [bx; by_; bz; ax; ay; az]).
  { rewrite Forall_forall in *. intros o H. apply W. simpl in *. tauto. }
  assert (S' : Forall (fun o => fits_in (op_shape o) B) [bx; by_; bz; ax; ay; az]).
  { rewrite Forall_forall in *. intros o H. apply S. simpl in *. tauto. }
  destruct (cross_value B ty _ _ _ _ _ _ N W S) as (cx & cy & cz & Ec & Wc & Sc & Vc).
  destruct (cross_value B ty _ _ _ _ _ _ N W' S') as (dx & dy & dz & Ed & Wd & Sd & Vd).
  assert (G : forall l l' : list (operand F), Forall op_wf l -> Forall op_wf l' -> Forall op_wf (l ++ l')) by (intros; apply Forall_app; auto).
  assert (H : forall l l' : list (operand F), Forall (fun o => fits_in (op_shape o) B) l -> Forall (fun o => fits_in (op_shape o) B) l' -> Forall (fun o => fits_in (op_shape o) B) (l ++ l')) by (intros; apply Forall_app; auto).
  assert (Wa : Forall op_wf [ax; ay; az]) by (apply (Forall_app op_wf [ax; ay; az] [bx; by_; bz]); exact W).
  assert (Wb : Forall op_wf [bx; by_; bz]) by (apply (Forall_app op_wf [ax; ay; az] [bx; by_; bz]); exact W).
  assert (Sa : Forall (fun o => fits_in (op_shape o) B) [ax; ay; az]) by (apply (Forall_app _ [ax; ay; az] [bx; by_; bz]); exact S).
  assert (Sb : Forall (fun o => fits_in (op_shape o) B) [bx; by_; bz]) by (apply (Forall_app _ [ax; ay; az] [bx; by_; bz]); exact S).
  destruct (dot3_value B ty ty cx cy cz ax ay az N (G _ _ Wc Wa) (H _ _ Sc Sa)) as (ca & Eca & _ & _ & Vca).
  destruct (dot3_value B ty ty cx cy cz bx by_ bz N (G _ _ Wc Wb) (H _ _ Sc Sb)) as (cb & Ecb & _ & _ & Vcb).
  destruct (dot3_value B ty ty ax ay az ax ay az N (G _ _ Wa Wa) (H _ _ Sa Sa)) as (aa & Eaa & _ & _ & Vaa).
  destruct (dot3_value B ty ty bx by_ bz bx by_ bz N (G _ _ Wb Wb) (H _ _ Sb Sb)) as (bb & Ebb & _ & _ & Vbb).
  destruct (dot3_value B ty ty ax ay az bx by_ bz N (G _ _ Wa Wb) (H _ _ Sa Sb)) as (ab & Eab & _ & _ & Vab).
  destruct (dot3_value B ty ty cx cy cz cx cy cz N (G _ _ Wc Wc) (H _ _ Sc Sc)) as (cc & Ecc & _ & _ & Vcc).
  exists (xyz ty cx cy cz), (xyz ty dx dy dz), ca, cb, aa, bb, ab, cc. repeat (split; [assumption|]).
  intros e I. rewrite Vca, Vcb, Vcc, Vaa, Vbb, Vab by exact I. specialize (Vc e I). specialize (Vd e I). rewrite !Vc.
  unfold point3, crossed, scalar3 in *. injection Vc as Vx Vy Vz. injection Vd as Ux Uy Uz.
  split; [ring|]. split; [ring|]. split; [ring|].
  intros n o o' (p & Lp & Pn) (q & Lq & Qn).
  assert (E : forall s : string, s = "x"%string \/ s = "y"%string \/ s = "z"%string -> True) by auto.
  assert (Pc : forall (u v w : operand F) p o, leaf_at (xyz ty u v w) p = Some o ->
    (p = ["x"%string] /\ o = u) \/ (p = ["y"%string] /\ o = v) \/ (p = ["z"%string] /\ o = w)).
  { clear. intros u v w p o H. destruct p as [|s p]; [discriminate|]. cbn [xyz leaf_at dget] in H.
    destruct (String.eqb_spec s "x") as [-> |]; [destruct p; [injection H as <-; auto|discriminate]|].
    destruct (String.eqb_spec s "y") as [-> |]; [destruct p; [injection H as <-; auto|discriminate]|].
    destruct (String.eqb_spec s "z") as [-> |]; [destruct p; [injection H as <-; auto|discriminate]|]. discriminate. }
  destruct (Pc _ _ _ _ _ Lp) as [[-> ->]|[[-> ->]|[-> ->]]], (Pc _ _ _ _ _ Lq) as [[-> ->]|[[-> ->]|[-> ->]]];
    simpl in Pn, Qn; subst n; try discriminate; rewrite ?Ux, ?Uy, ?Uz, ?Vx, ?Vy, ?Vz; ring.
Qed.

Lemma cross_refuses (a b : vec F) :
  (forall ty cs, a = Node ty cs -> type_name b <> Some ty -> cross K a b = Err TypeError) /\
  (type_name a = type_name b -> is_node a -> NoDup (names a) -> NoDup (names b) ->
   length (leaves a) <> 3 \/ length (leaves b) <> 3 -> cross K a b = Err ValueError).
Proof.
  split.
  - intros ty cs -> H. destruct b as [o|ty' cs']; [reflexivity|]. unfold cross. destruct (String.eqb_spec ty ty') as [-> |]; [|reflexivity].
    now destruct H.
  - intros T (ty & cs & ->) Na Nb L. destruct b as [o|ty' cs']; [discriminate|]. injection T as <-.
    unfold cross. rewrite String.eqb_refl. cbn [negb].
    assert (La : length (cartesian_nd (Node ty cs)) = length (leaves (Node ty cs))).
    { rewrite cart_entries by (unfold is_node; eauto). rewrite combine_length, names_length. lia. }
    assert (Lb : length (cartesian_nd (Node ty cs')) = length (leaves (Node ty cs'))).
    { rewrite cart_entries by (unfold is_node; eauto). rewrite combine_length, names_length. lia. }
    rewrite La, Lb. destruct (Nat.eqb_spec (length (leaves (Node ty cs))) 3) as [E|]; [|reflexivity].
    destruct (Nat.eqb_spec (length (leaves (Node ty cs'))) 3) as [E'|]; [|reflexivity]. exfalso. destruct L; auto.
Qed.

(** volumes *)
Lemma volume_ok ty (x y z : operand F) sh a b c o : op_wf x -> op_wf y -> op_wf z -> vec_shape (xyz ty x y z) = Ok sh ->
  sub_shape (op_shape x) sh -> sub_shape (op_shape y) sh -> sub_shape (op_shape z) sh ->
  In a (dkeys sh) -> In b (dkeys sh) -> In c (dkeys sh) -> a <> b -> b <> c -> c <> a ->
  volume_cell_3d K (xyz ty x y z) (Some [a; b; c]) = Ok o ->
  forall e, inside e (shrunk sh [a; b; c]) -> op_at o e = over K (enclosed K (point3 x y z) (surface a b c e)) (six_times K (one K)).
Proof.
  intros Wx Wy Wz Sh Sx Sy Sz Ha Hb Hc D1 D2 D3 E.
  destruct (volume_value K FK ty x y z sh a b c Wx Wy Wz Sh Sx Sy Sz Ha Hb Hc D1 D2 D3) as [(o' & E' & _ & _ & V)|[E' _]].
  - rewrite E in E'. injection E' as <-. exact V.
  - congruence.
Qed.

Lemma corners_inside sh a b c e : inside e (shrunk sh [a; b; c]) -> a <> b -> b <> c -> c <> a ->
  forall e', In e' [e; next a e; next b e; next b (next a e); next c e; next c (next a e); next c (next b e); next c (next b (next a e))] -> inside e' sh.
Proof.
  intros I D1 D2 D3 e' H ax n Hn.
  assert (Q : e ax < if smem ax [a; b; c] then n - 1 else n) by (apply I, shrunk_In; eauto). simpl in Q. unfold next, set_env in H.
  destruct (String.eqb_spec ax a) as [-> |E1].
  - simpl in Q. destruct H as [<- |[<- |[<- |[<- |[<- |[<- |[<- |[<- |[]]]]]]]]]; names_cases; lia.
  - destruct (String.eqb_spec ax b) as [-> |E2].
    + simpl in Q. destruct H as [<- |[<- |[<- |[<- |[<- |[<- |[<- |[<- |[]]]]]]]]]; names_cases; lia.
    + destruct (String.eqb_spec ax c) as [-> |E3]; simpl in Q;
        destruct H as [<- |[<- |[<- |[<- |[<- |[<- |[<- |[<- |[]]]]]]]]]; names_cases; lia.
Qed.

Section Two.
Variables (ty ty' : string) (x y z x' y' z' : operand F) (sh : shape) (a b c : string) (o o' : operand F).
Hypothesis (W : Forall op_wf [x; y; z; x'; y'; z']) (Sh : vec_shape (xyz ty x y z) = Ok sh) (Sh' : vec_shape (xyz ty' x' y' z') = Ok sh).
Hypothesis (S : Forall (fun o => sub_shape (op_shape o) sh) [x; y; z; x'; y'; z']).
Hypothesis (Ha : In a (dkeys sh)) (Hb : In b (dkeys sh)) (Hc : In c (dkeys sh)) (D1 : a <> b) (D2 : b <> c) (D3 : c <> a).
Hypothesis (E : volume_cell_3d K (xyz ty x y z) (Some [a; b; c]) = Ok o) (E' : volume_cell_3d K (xyz ty' x' y' z') (Some [a; b; c]) = Ok o').

Lemma both_values e : inside e (shrunk sh [a; b; c]) ->
  op_at o e = over K (enclosed K (point3 x y z) (surface a b c e)) (six_times K (one K)) /\
  op_at o' e = over K (enclosed K (point3 x' y' z') (surface a b c e)) (six_times K (one K)).
Proof.
  intros I. rewrite Forall_forall in W, S. split.
  - apply (volume_ok ty x y z sh a b c o); auto; try (apply W; simpl; tauto); apply S; simpl; tauto.
  - apply (volume_ok ty' x' y' z' sh a b c o'); auto; try (apply W; simpl; tauto); apply S; simpl; tauto.
Qed.

Lemma volume_translation (t : env -> F * F * F) :
  (forall e, t (next a e) = t e) -> (forall e, t (next b e) = t e) -> (forall e, t (next c e) = t e) ->
  (forall e, inside e sh -> point3 x' y' z' e = add3 K (point3 x y z e) (t e)) ->
  forall e, inside e (shrunk sh [a; b; c]) -> op_at o' e = op_at o e.
Proof.
  intros T1 T2 T3 H e I. destruct (both_values e I) as [-> ->]. f_equal.
  rewrite !(surface_box K FK _ a b c e (point3_ext _ _ _) D1 D2 D3).
  assert (Q := corners_inside sh a b c e I D1 D2 D3).
  rewrite !H by (apply Q; simpl; tauto). rewrite ?T3, ?T2, ?T1. now apply box_shift.
Qed.

Lemma volume_linear (u v w : F * F * F) :
  (forall e, inside e sh -> point3 x' y' z' e = linear3 K u v w (point3 x y z e)) ->
  forall e, inside e (shrunk sh [a; b; c]) -> op_at o' e = times K (det K u v w) (op_at o e).
Proof.
  intros H e I. destruct (both_values e I) as [-> ->]. rewrite <- (over_scale K FK). f_equal.
  rewrite !(surface_box K FK _ a b c e (point3_ext _ _ _) D1 D2 D3).
  assert (Q := corners_inside sh a b c e I D1 D2 D3).
  rewrite !H by (apply Q; simpl; tauto). now apply box_linear.
Qed.
End Two.

Section One.
Variables (ty : string) (x y z : operand F) (sh : shape) (a b c : string) (o : operand F).
Hypothesis (W : Forall op_wf [x; y; z]) (Sh : vec_shape (xyz ty x y z) = Ok sh) (S : Forall (fun o => sub_shape (op_shape o) sh) [x; y; z]).

Lemma volume_parallelepiped : In a (dkeys sh) -> In b (dkeys sh) -> In c (dkeys sh) -> a <> b -> b <> c -> c <> a ->
  volume_cell_3d K (xyz ty x y z) (Some [a; b; c]) = Ok o -> six_times K (one K) <> zero K ->
  forall e u v w, inside e (shrunk sh [a; b; c]) ->
  let P := point3 x y z in
  (forall e', In e' [e; next b e; next c e; next c (next b e)] -> P (next a e') = add3 K (P e') u) ->
  (forall e', In e' [e; next c e] -> P (next b e') = add3 K (P e') v) -> P (next c e) = add3 K (P e) w ->
  op_at o e = det K u v w.
Proof.
  intros Ha Hb Hc D1 D2 D3 E Z e u v w I P U V Wc. rewrite Forall_forall in W, S.
  rewrite (volume_ok ty x y z sh a b c o) by (auto; try (apply W; simpl; tauto); apply S; simpl; tauto). fold P.
  rewrite (surface_box K FK P a b c e (point3_ext x y z) D1 D2 D3).
  assert (R : respects P) by apply point3_ext.
  assert (C : forall p q n e, p <> q -> P (next p (next q e)) = n -> P (next q (next p e)) = n).
  { intros p q n f D <-. apply R. intros ax. apply next_comm. congruence. }
  assert (Pa : P (next a e) = add3 K (P e) u) by (apply U; simpl; auto).
  assert (Pb : P (next b e) = add3 K (P e) v) by (apply V; simpl; auto).
  assert (Pba : P (next b (next a e)) = add3 K (add3 K (P e) u) v).
  { apply C; [exact D1|]. rewrite U by (simpl; auto). rewrite Pb. destruct (P e) as [[? ?] ?], u as [[? ?] ?], v as [[? ?] ?]. unfold add3. f_equal; [f_equal|]; ring. }
  assert (Pca : P (next c (next a e)) = add3 K (add3 K (P e) u) w).
  { apply C; [congruence|]. rewrite U by (simpl; auto). rewrite Wc. destruct (P e) as [[? ?] ?], u as [[? ?] ?], w as [[? ?] ?]. unfold add3. f_equal; [f_equal|]; ring. }
  assert (Pcb : P (next c (next b e)) = add3 K (add3 K (P e) v) w).
  { apply C; [congruence|]. rewrite V by (simpl; auto). rewrite Wc. destruct (P e) as [[? ?] ?], v as [[? ?] ?], w as [[? ?] ?]. unfold add3. f_equal; [f_equal|]; ring. }
  assert (Pcba : P (next c (next b (next a e))) = add3 K (add3 K (add3 K (P e) u) v) w).
  { replace (P (next c (next b (next a e)))) with (P (next a (next c (next b e)))).
    - rewrite U by (simpl; auto). rewrite Pcb. destruct (P e) as [[? ?] ?], u as [[? ?] ?], v as [[? ?] ?], w as [[? ?] ?]. unfold add3. f_equal; [f_equal|]; ring.
    - apply R. intros ax. unfold next, set_env. names_cases; reflexivity. }
  rewrite Pa, Pb, Pba, Wc, Pca, Pcb, Pcba, (box_parallel K FK).
  replace (six_times K (det K u v w)) with (times K (det K u v w) (six_times K (one K))) by (unfold six_times; ring).
  rewrite (over_scale K FK). replace (over K (six_times K (one K)) (six_times K (one K))) with (one K) by (field; exact Z). ring.
Qed.

Lemma volume_grid n m l : In (a, Datatypes.S n) sh -> In (b, Datatypes.S m) sh -> In (c, Datatypes.S l) sh -> a <> b -> b <> c -> c <> a ->
  volume_cell_3d K (xyz ty x y z) (Some [a; b; c]) = Ok o ->
  forall e, inside_but e sh [a; b; c] ->
  sum_to K n (fun i => sum_to K m (fun j => sum_to K l (fun k => op_at o (set_env (set_env (set_env e a i) b j) c k)))) =
  over K (enclosed K (point3 x y z) (grid_surface a b c n m l e)) (six_times K (one K)).
Proof.
  intros Ha Hb Hc D1 D2 D3 E e I. rewrite Forall_forall in W, S.
  assert (Wx : op_wf x) by (apply W; simpl; tauto). assert (Wy : op_wf y) by (apply W; simpl; tauto). assert (Wz : op_wf z) by (apply W; simpl; tauto).
  assert (N := xyz_shape ty x y z sh Wx Wy Wz Sh).
  assert (Q := volume_ok ty x y z sh a b c o Wx Wy Wz Sh ltac:(apply S; simpl; tauto) ltac:(apply S; simpl; tauto) ltac:(apply S; simpl; tauto)
    ltac:(apply in_map_iff; eexists; split; [|exact Ha]; reflexivity) ltac:(apply in_map_iff; eexists; split; [|exact Hb]; reflexivity)
    ltac:(apply in_map_iff; eexists; split; [|exact Hc]; reflexivity) D1 D2 D3 E).
  rewrite <- (grid_volume K FK (point3 x y z) a b c n m l e (point3_ext x y z) D1 D2 D3).
  rewrite (over_times K FK), <- (sum_to_times K FK). apply sum_to_ext. intros i Hi.
  rewrite <- (sum_to_times K FK). apply sum_to_ext. intros j Hj. rewrite <- (sum_to_times K FK). apply sum_to_ext. intros k Hk.
  rewrite <- (over_times K FK). unfold place3. apply Q.
  intros ax q Hq. apply shrunk_In in Hq. destruct Hq as (q' & Hq & ->). unfold set_env. simpl.
  assert (U : forall s r, In (s, r) sh -> In (s, q') sh -> r = q').
  { intros s r H1 H2. assert (Z := dget_NoDup _ _ _ N H1). rewrite (dget_NoDup _ _ _ N H2) in Z. congruence. }
  destruct (String.eqb_spec ax c) as [-> |E3]; [rewrite <- (U _ _ Hc Hq), !orb_true_r; lia|].
  destruct (String.eqb_spec ax b) as [-> |E2]; [rewrite <- (U _ _ Hb Hq), !orb_true_r; lia|].
  destruct (String.eqb_spec ax a) as [-> |E1]; [rewrite <- (U _ _ Ha Hq); simpl; lia|].
  simpl. apply (I ax q' Hq). simpl. intuition.
Qed.
End One.

(** the six tetrahedra between the near and the far corner *)
Lemma volume_tetrahedra (x y z : operand F) a b c e : a <> b -> b <> c -> c <> a ->
  let P := point3 x y z in
  let far := P (next c (next b (next a e))) in
  enclosed K P (surface a b c e) =
  total K [tetrahedron K (P e) (P (next a e)) (P (next b (next a e))) far;
           tetrahedron K (P e) (P (next b e)) (P (next c (next b e))) far;
           tetrahedron K (P e) (P (next c e)) (P (next c (next a e))) far;
           neg K (tetrahedron K (P e) (P (next b e)) (P (next b (next a e))) far);
           neg K (tetrahedron K (P e) (P (next c e)) (P (next c (next b e))) far);
           neg K (tetrahedron K (P e) (P (next a e)) (P (next c (next a e))) far)].
Proof.
  intros D1 D2 D3 P far. rewrite (surface_box K FK P a b c e (point3_ext x y z) D1 D2 D3). unfold far. clear far.
  unfold total. cbn [fold_right].
  destruct (P e) as [[? ?] ?], (P (next a e)) as [[? ?] ?], (P (next b e)) as [[? ?] ?], (P (next c e)) as [[? ?] ?],
    (P (next b (next a e))) as [[? ?] ?], (P (next c (next a e))) as [[? ?] ?], (P (next c (next b e))) as [[? ?] ?],
    (P (next c (next b (next a e)))) as [[? ?] ?]. unfold box, tetrahedron, sub3, det. ring.
Qed.

Lemma volume_axis (v : vec F) sh : vec_shape v = Ok sh ->
  (length sh = 3 -> volume_cell_3d K v None = volume_cell_3d K v (Some (dkeys sh))) /\
  (length sh <> 3 -> volume_cell_3d K v None = Err ValueError) /\
  (forall l, (exists ax, In ax l /\ ~ In ax (dkeys sh)) \/ length l <> 3 -> volume_cell_3d K v (Some l) = Err ValueError).
Proof.
  intros E. unfold volume_cell_3d. rewrite E. cbn [bind].
  assert (Q : forallb (fun ax => smem ax (dkeys sh)) (dkeys sh) = true).
  { apply forallb_forall. intros ax H. now apply smem_In. }
  split; [|split].
  - intros _. now rewrite Q.
  - intros L. unfold dkeys. destruct sh as [|? [|? [|? [|? ?]]]]; try reflexivity. now destruct L.
  - intros l H. destruct (forallb (fun ax => smem ax (dkeys sh)) l) eqn:Z; [|reflexivity]. cbn [bind].
    destruct H as [(ax & Hx & Hn)|H].
    + rewrite forallb_forall in Z. apply Z, smem_In in Hx. contradiction.
    + destruct l as [|? [|? [|? [|? ?]]]]; try reflexivity. now destruct H.
Qed.
End Laws.
