(** Facts about rotation matrices. *)
From Coq Require Import Ascii String List Arith ZArith Bool Lia Field Field_theory.
From Verif Require Import Base BaseFacts Numpy Shapes Scalar Elementwise Vector Matrix Rotation Spec SpecVector SpecMatrix SpecRotation.
From Verif Require Import VectorFacts CartesianFacts VectorIndexFacts MatrixFacts MatrixLaws.
Import ListNotations.
Open Scope nat_scope.
Open Scope list_scope.

Lemma leaf_pair {L} (t : tree L) q o : leaf_at t q = Some o -> In (String.concat "." q, o) (combine (names t) (leaves t)).
Proof.
  intros H. unfold names. rewrite combine_map_l. apply in_map_iff. exists (q, o). split; [reflexivity|]. now apply leaf_at_In.
Qed.

Section Rotation.
Context {A F : Type} (K : arith F) (FK : is_field K).
Let Fth : field_theory (zero K) (one K) (plus K) (times K) (minus K) (neg K) (over K) (over K (one K)) eq := proj1 FK.
Add Field Kf9 : Fth.
Variables (add : A -> A -> A) (cosine sine : A -> F).
Variable B : shape.
Hypothesis N : NoDup (dkeys B).

Definition spins (k : about) (c s : F) (i j : string) : F := rotated K k c s (fun m => delta K m j) i.

Lemma rotation_spec k (a : operand A) : op_wf a -> fits_in (op_shape a) B ->
  exists r, rotation K cosine sine k a = Ok r /\ matrix_ok r /\ matrix_fits B r /\ names r = coordinates k /\ ordered_columns r (coordinates k) /\
    (forall row, In row (leaves r) -> forall p, kind row p = kind r p) /\ type_name r = Some (space_type k) /\
    forall e, inside e B -> matrix_reads r e (spins k (cosine (op_at a e)) (sine (op_at a e))).
Proof.
  intros W Fa.
  destruct (ufunc_reads (fun l => match l with [x] => cosine x | _ => zero K end) B [a] N) as (c & Ec & Rc); [auto|auto|].
  destruct (ufunc_reads (fun l => match l with [x] => sine x | _ => zero K end) B [a] N) as (s & Es & Rs); [auto|auto|].
  destruct (op1_reads K B (neg K) s _ N Rs) as (n & En & Rn). cbn [map] in *.
  assert (Z := reads_num B (zero K)). assert (O := reads_num B (one K)).
  assert (G : forall (o : operand F) f, reads B o f -> op_wf o) by (intros o f H; apply H).
  assert (G' : forall (o : operand F) f, reads B o f -> fits_in (op_shape o) B) by (intros o f H; apply H).
  destruct k; unfold rotation, rotation2, rotation_x, rotation_y, rotation_z, op_cos, op_sin; rewrite Ec; cbn [bind]; rewrite Es; cbn [bind]; rewrite En; cbn [bind];
    (eexists; split; [reflexivity|]).
  all: split; [match goal with |- matrix_ok (Node ?ty [(_, Leaf ?x); (_, Leaf ?y)]) => apply (flat_matrix ty ["x"; "y"]%string [x; y])
       | |- matrix_ok (Node ?ty [(_, Leaf ?x); (_, Leaf ?y); (_, Leaf ?z)]) => apply (flat_matrix ty ["x"; "y"; "z"]%string [x; y; z]) end|].
  all: try reflexivity. all: try discriminate. all: try match goal with |- NoDup _ => once (repeat constructor; simpl; intuition discriminate) end.
  1,3,5,7: repeat apply Forall_cons; try apply Forall_nil.
  all: try match goal with |- vector_ok (row2 ?x ?y) => apply (flat_vector "Cartesian2d" ["x"; "y"]%string [x; y])
       | |- vector_ok (row3 ?x ?y ?z) => apply (flat_vector "Cartesian3d" ["x"; "y"; "z"]%string [x; y; z]) end.
  all: try reflexivity. all: try discriminate. all: try match goal with |- NoDup _ => once (repeat constructor; simpl; intuition discriminate) end.
  all: try match goal with |- Forall op_wf _ => repeat apply Forall_cons; try apply Forall_nil; eapply G; eassumption end.
  all: (split; [intros ? ? o (pp & row & Hp & _ & q & Hq & _); apply leaf_In in Hp, Hq; cbn in Hp;
         repeat (destruct Hp as [<- |Hp]; [cbn in Hq; repeat (destruct Hq as [<- |Hq]; [eapply G'; eassumption|]); contradiction|]); contradiction|]).
  all: (split; [reflexivity|]; split; [intros row Hr; cbn in Hr; repeat (destruct Hr as [<- |Hr]; [reflexivity|]); contradiction|]).
  all: (split; [intros row Hr p; cbn in Hr; repeat (destruct Hr as [<- |Hr]; [destruct p as [|i [|j p]]; cbn; repeat (match goal with |- context [String.eqb i ?x] => destruct (String.eqb i x) end); reflexivity|]); contradiction|]).
  all: (split; [reflexivity|]).
  all: intros e I r c' o (pp & row & Hp & <- & qq & Hq & <-); apply leaf_pair in Hp, Hq; revert Hp Hq; generalize (String.concat "." pp) (String.concat "." qq); intros i j Hp Hq; cbn in Hp;
    repeat (destruct Hp as [Hp|Hp]; [injection Hp as <- <-; cbn in Hq;
      repeat (destruct Hq as [Hq|Hq]; [injection Hq as <- <-; unfold spins, rotated, delta; cbn;
        first [rewrite (reads_at B c _ e Rc I) | rewrite (reads_at B s _ e Rs I) | rewrite (reads_at B n _ e Rn I) | idtac]; cbn; ring|]); contradiction|]); contradiction.
Qed.

Ltac by_coordinate H := repeat (destruct H as [<- |H]; [|]); [..|contradiction].
Ltac compute_sums := unfold norm2, sum_over, spins, rotated, delta; cbn [fold_right from to coordinates String.eqb Ascii.eqb Bool.eqb].

Lemma spins_apply k c s V i : In i (coordinates k) ->
  sum_over K (coordinates k) (fun j => times K (spins k c s i j) (V j)) = rotated K k c s V i.
Proof. destruct k; cbn [coordinates In]; intros H; by_coordinate H; compute_sums; ring. Qed.

Lemma spins_product k c s c' s' i j : In i (coordinates k) -> In j (coordinates k) ->
  sum_over K (coordinates k) (fun m => times K (spins k c s i m) (spins k c' s' m j)) =
  spins k (minus K (times K c c') (times K s s')) (plus K (times K s c') (times K c s')) i j.
Proof. destruct k; cbn [coordinates In]; intros H H'; by_coordinate H; by_coordinate H'; compute_sums; ring. Qed.

Lemma spins_orthogonal k c s i j : plus K (times K c c) (times K s s) = one K -> In i (coordinates k) -> In j (coordinates k) ->
  sum_over K (coordinates k) (fun m => times K (spins k c s m i) (spins k c s m j)) = delta K i j /\
  sum_over K (coordinates k) (fun m => times K (spins k c s i m) (spins k c s j m)) = delta K i j.
Proof.
  intros E H H'.
  destruct k; cbn [coordinates In] in H, H'; by_coordinate H; by_coordinate H'; split; compute_sums; first [ring | etransitivity; [|exact E]; ring].
Qed.

Lemma spins_determinant k c s : plus K (times K c c) (times K s s) = one K ->
  determinant K (coordinates k) (coordinates k) (spins k c s) = one K.
Proof.
  intros E. destruct k; cbn [coordinates determinant expand app]; unfold spins, rotated, delta; cbn [from to String.eqb Ascii.eqb Bool.eqb]; (etransitivity; [|exact E]); ring.
Qed.

Lemma norm_rotated k c s V : plus K (times K c c) (times K s s) = one K ->
  norm2 K (coordinates k) (rotated K k c s V) = norm2 K (coordinates k) V.
Proof.
  intros E. destruct k; compute_sums;
  [transitivity (times K (plus K (times K c c) (times K s s)) (plus K (times K (V "x"%string) (V "x"%string)) (times K (V "y"%string) (V "y"%string))))
  |transitivity (plus K (times K (V "x"%string) (V "x"%string)) (times K (plus K (times K c c) (times K s s)) (plus K (times K (V "y"%string) (V "y"%string)) (times K (V "z"%string) (V "z"%string)))))
  |transitivity (plus K (times K (V "y"%string) (V "y"%string)) (times K (plus K (times K c c) (times K s s)) (plus K (times K (V "x"%string) (V "x"%string)) (times K (V "z"%string) (V "z"%string)))))
  |transitivity (plus K (times K (V "z"%string) (V "z"%string)) (times K (plus K (times K c c) (times K s s)) (plus K (times K (V "x"%string) (V "x"%string)) (times K (V "y"%string) (V "y"%string)))))];
  try ring; rewrite E; ring.
Qed.

Lemma matrix_reads_ext (m : matrix F) C e M M' : matrix_ok m -> has_columns m C -> matrix_reads m e M ->
  (forall i j, In i (names m) -> In j C -> M i j = M' i j) -> matrix_reads m e M'.
Proof. intros Mk Hc R H i j o Ho. destruct (cell_in m C i j o Mk Hc Ho) as [Hi Hj]. rewrite <- H by auto. now apply R. Qed.

(** ** The laws *)

Lemma rotate_vector k (a : operand A) (v : vec F) : op_wf a -> fits_in (op_shape a) B ->
  vector_ok v -> vector_fits B v -> type_name v = Some (space_type k) -> (forall c, In c (names v) <-> In c (coordinates k)) ->
  exists r w, rotation K cosine sine k a = Ok r /\ matvec K r v = Ok w /\
    vector_ok w /\ vector_fits B w /\ type_name w = Some (space_type k) /\ names w = coordinates k /\
    forall e V, inside e B -> vector_reads v e V -> vector_reads w e (rotated K k (cosine (op_at a e)) (sine (op_at a e)) V).
Proof.
  intros W Fa Vk Vf Tv Nv. destruct (rotation_spec k a W Fa) as (r & E & Mk & Mf & Nm & Oc & Kr & Ty' & R). exists r.
  assert (Ty : rows_typed r v) by (intros row Hr; rewrite Tv, <- Ty'; unfold type_name; now rewrite (Kr row Hr)).
  assert (Hc : has_columns r (names v)) by (intros row Hr c; rewrite (Oc row Hr); symmetry; apply Nv).
  destruct (matvec_value K FK B r v N Mk Vk Mf Vf Hc Ty) as (w & Ew & Wk & Kw & Nw & Wf & Rw). exists w. rewrite Nm in Nw. do 4 (split; [assumption|]).
  split; [rewrite <- Ty'; unfold type_name; now rewrite Kw|]. split; [exact Nw|].
  intros e V I Rv i o Hi. assert (Hn : In i (coordinates k)) by (rewrite <- Nw; apply part_name; [exact Wk|now exists o]).
  rewrite <- (Rw e _ V I (R e I) Rv i o Hi).
  assert (Dc : NoDup (coordinates k)) by (rewrite <- Nm; apply Mk).
  rewrite (sum_over_same K FK (names v) (coordinates k)); [symmetry; now apply spins_apply|apply Vk|exact Dc|exact Nv].
Qed.

Lemma rotate_sum (T : trigonometric K add cosine sine) k (a b ab : operand A) : op_wf a -> op_wf b -> op_wf ab -> fits_in (op_shape a) B -> fits_in (op_shape b) B -> fits_in (op_shape ab) B ->
  (forall e, inside e B -> op_at ab e = add (op_at a e) (op_at b e)) ->
  exists ra rb rab m, rotation K cosine sine k a = Ok ra /\ rotation K cosine sine k b = Ok rb /\ rotation K cosine sine k ab = Ok rab /\
    matmul K ra rb = Ok m /\ matrix_ok m /\ matrix_ok rab /\ (forall p, kind m p = kind rab p) /\ names m = coordinates k /\ ordered_columns m (coordinates k) /\ ordered_columns rab (coordinates k) /\
    forall e M, inside e B -> matrix_reads m e M <-> matrix_reads rab e M.
Proof.
  intros Wa Wb Wab Fa Fb Fab Eab. destruct T as (T1 & T2 & T3).
  destruct (rotation_spec k a Wa Fa) as (ra & Ea & Ma & Ga & Na & Oa & Ka & _ & Ra).
  destruct (rotation_spec k b Wb Fb) as (rb & Eb & Mb & Gb & Nb & Ob & Kb & _ & Rb).
  destruct (rotation_spec k ab Wab Fab) as (rab & Ec & Mc & Gc & Nc & Oc & Kc & _ & Rc).
  assert (Ha : has_columns ra (names rb)) by (rewrite Nb; now apply ordered_has).
  destruct (matmul_value K FK B ra rb (coordinates k) N Ma Mb Ga Gb Ha (ordered_has _ _ Ob)) as (m & Em & Mm & Km & Nm & Hm & Om & _ & _ & Rm).
  exists ra, rb, rab, m. do 6 (split; [assumption|]).
  assert (Kab : forall p, kind ra p = kind rab p).
  { clear - Ea Ec. revert Ea Ec. destruct k; unfold rotation, rotation2, rotation_x, rotation_y, rotation_z; intros Ea Ec p;
    apply bind_ok in Ea; destruct Ea as (? & _ & Ea); apply bind_ok in Ea; destruct Ea as (? & _ & Ea); apply bind_ok in Ea; destruct Ea as (? & _ & Ea); injection Ea as <-;
    apply bind_ok in Ec; destruct Ec as (? & _ & Ec); apply bind_ok in Ec; destruct Ec as (? & _ & Ec); apply bind_ok in Ec; destruct Ec as (? & _ & Ec); injection Ec as <-;
    (destruct p as [|i [|j p]]; cbn; repeat (match goal with |- context [String.eqb i ?x] => destruct (String.eqb i x) end); reflexivity). }
  split; [intros p; now rewrite Km|]. rewrite Na in Nm. split; [exact Nm|]. split; [now apply Om|]. split; [exact Oc|].
  intros e M I.
  assert (X : forall i j, In i (coordinates k) -> In j (coordinates k) ->
    sum_over K (names rb) (fun m => times K (spins k (cosine (op_at a e)) (sine (op_at a e)) i m) (spins k (cosine (op_at b e)) (sine (op_at b e)) m j)) =
    spins k (cosine (op_at ab e)) (sine (op_at ab e)) i j).
  { intros i j Hi Hj. rewrite Nb, spins_product by auto. rewrite (Eab e I). now rewrite T2, T3. }
  assert (Rm' := Rm e _ _ I (Ra e I) (Rb e I)). assert (Rc' := Rc e I).
  assert (Cell : forall u : matrix F, matrix_ok u -> names u = coordinates k -> has_columns u (coordinates k) -> forall i j, In i (coordinates k) /\ In j (coordinates k) <-> exists o, cell u i j o).
  { intros u Mu Nu Hu i j. rewrite <- Nu at 1. now apply cell_exists. }
  split; intros R i j o Ho.
  - destruct (proj2 (Cell rab Mc Nc (ordered_has _ _ Oc) i j)) as [Hi Hj]; [now exists o|].
    destruct (proj1 (Cell m Mm Nm Hm i j)) as (o' & Ho'); [auto|]. rewrite (R i j o' Ho'), <- (Rm' i j o' Ho'), X by auto. now apply Rc'.
  - destruct (proj2 (Cell m Mm Nm Hm i j)) as [Hi Hj]; [now exists o|].
    destruct (proj1 (Cell rab Mc Nc (ordered_has _ _ Oc) i j)) as (o' & Ho'); [auto|]. rewrite (R i j o' Ho'), <- (Rc' i j o' Ho'), <- X by auto. now apply Rm'.
Qed.

Lemma rotate_back (T : trigonometric K add cosine sine) k (a : operand A) : op_wf a -> fits_in (op_shape a) B ->
  exists r t inv p q, rotation K cosine sine k a = Ok r /\ m_transpose K r = Ok t /\ matmul K t r = Ok p /\ matmul K r t = Ok q /\ m_inverse K r = Ok inv /\
    names t = coordinates k /\ names inv = coordinates k /\ ordered_columns t (coordinates k) /\ ordered_columns inv (coordinates k) /\
    forall e, inside e B -> matrix_reads p e (delta K) /\ matrix_reads q e (delta K) /\
      forall M, matrix_reads t e M -> matrix_reads inv e M.
Proof.
  intros W Fa. destruct T as (T1 & _ & _). destruct (rotation_spec k a W Fa) as (r & E & Mk & Mf & Nm & Oc & Kr & Ty & R).
  assert (Hc := ordered_has _ _ Oc).
  destruct (transpose_cells K r (coordinates k) Mk Hc) as (t & Et & Mt & Nt & Ot & Nt' & _ & Ct).
  specialize (Nt' _ Oc). rewrite Nm in Ot. assert (Ht := ordered_has _ _ Ot).
  assert (Ft : matrix_fits B t) by (intros i j o Ho; apply (Mf j i); now apply Ct).
  destruct (matmul_value K FK B t r (coordinates k) N Mt Mk Ft Mf) as (p & Ep & Mp & _ & Np & Hp & _ & _ & _ & Rp); [now rewrite Nm|exact Hc|].
  destruct (matmul_value K FK B r t (coordinates k) N Mk Mt Mf Ft) as (q & Eq & Mq & _ & Nq & Hq & _ & _ & _ & Rq); [now rewrite Nt'|exact Ht|].
  assert (L : length (coordinates k) = length (names r)) by now rewrite Nm.
  assert (L3 : length (coordinates k) <= 3) by (destruct k; cbn; lia).
  destruct (inverse_laws K FK B r (coordinates k) N Mk Mf Oc L L3) as (inv & p' & q' & Ei & Ep' & Eq' & Mi & Fi & Ni & Oi & _ & _ & Ri).
  rewrite Nm in Oi. assert (Hi := ordered_has _ _ Oi).
  exists r, t, inv, p, q. do 9 (split; [assumption|]). intros e I.
  assert (Rt := transpose_reads r t e _ Ct (R e I)). set (c := cosine (op_at a e)) in *. set (s := sine (op_at a e)) in *.
  assert (Ecs : plus K (times K c c) (times K s s) = one K) by apply T1.
  assert (Nin : forall (u : matrix F) C, matrix_ok u -> names u = coordinates k -> has_columns u C -> forall i j o, cell u i j o -> In i (coordinates k) /\ In j C).
  { intros u C Mu Nu Hu i j o Ho. rewrite <- Nu. now apply (cell_in u C i j o). }
  assert (Rp' := Rp e _ _ I Rt (R e I)). assert (Rq' := Rq e _ _ I (R e I) Rt). rewrite Nm in Rp'. rewrite Nt' in Rq'.
  split; [|split].
  - apply (matrix_reads_ext p (coordinates k) e _ _ Mp Hp Rp'). intros i j Hi' Hj. rewrite Np, Nt' in Hi'. apply (spins_orthogonal k c s i j Ecs Hi' Hj).
  - apply (matrix_reads_ext q (coordinates k) e _ _ Mq Hq Rq'). intros i j Hi' Hj. rewrite Nq, Nm in Hi'. apply (spins_orthogonal k c s i j Ecs Hi' Hj).
  - intros M RM. destruct (Ri e _ I (R e I)) as [I1 I2].
    { rewrite Nm. fold c s. rewrite spins_determinant by exact Ecs. exact (F_1_neq_0 Fth). }
    assert (Cell : forall u : matrix F, matrix_ok u -> names u = coordinates k -> has_columns u (coordinates k) -> forall i j, In i (coordinates k) -> In j (coordinates k) -> exists o, cell u i j o).
    { intros u Mu Nu Hu i j H1 H2. apply (cell_exists u (coordinates k)); auto. now rewrite Nu. }
    destruct (matmul_value K FK B inv r (coordinates k) N Mi Mk Fi Mf) as (p2 & Ep2 & Mp2 & _ & Np2 & Hp2 & _ & _ & _ & Rp2); [now rewrite Nm|exact Hc|].
    assert (Z := eq_trans (eq_sym Ep2) Ep'). injection Z as ->.
    assert (D : NoDup (coordinates k)) by (rewrite <- Nm; apply Mk).
    intros i j o Ho. destruct (Nin inv (coordinates k) Mi Ni Hi i j o Ho) as [Hi1 Hj1].
    destruct (Cell t Mt Nt' Ht i j Hi1 Hj1) as (o' & Ho'). rewrite (RM i j o' Ho'), <- (Rt i j o' Ho'). cbn beta.
    rewrite <- (entry_cell K inv i j o e Mi Ho).
    (* inv = inv (r t) = (inv r) t *)
    assert (J1 : forall x y, In x (coordinates k) -> In y (coordinates k) -> sum_over K (coordinates k) (fun m => times K (entry K inv x m e) (spins k c s m y)) = delta K x y).
    { intros x y Hx Hy. destruct (Cell p' Mp2 ltac:(congruence) Hp2 x y Hx Hy) as (o2 & Ho2).
      rewrite (I1 x y o2 Ho2), <- (Rp2 e _ _ I (entry_reads K inv e Mi) (R e I) x y o2 Ho2). now rewrite Nm. }
    transitivity (sum_over K (coordinates k) (fun m => times K (delta K i m) (spins k c s j m))).
    { symmetry. clear - Fth FK D Hi1. induction (coordinates k) as [|x l IH]; [destruct Hi1|]. inversion D; subst. unfold sum_over in *. cbn [fold_right].
      destruct Hi1 as [-> |Hi1].
      - unfold delta at 1. rewrite String.eqb_refl. change (fold_right _ (zero K) l) with (sum_over K l (fun m => times K (delta K i m) (spins k c s j m))).
        rewrite (sum_over_ext K l _ (fun _ => zero K)); [rewrite sum_over_zero by exact FK; ring|].
        intros m Hm. unfold delta. destruct (String.eqb_spec i m) as [-> |]; [contradiction|ring].
      - rewrite IH by auto. unfold delta. destruct (String.eqb_spec i x) as [-> |]; [contradiction|ring]. }
    transitivity (sum_over K (coordinates k) (fun m => times K (sum_over K (coordinates k) (fun n => times K (entry K inv i n e) (spins k c s n m))) (spins k c s j m))).
    { apply sum_over_ext. intros m Hm. now rewrite J1. }
    rewrite (sum_assoc K FK (coordinates k) (coordinates k) (fun i n => entry K inv i n e) (spins k c s) (fun m => spins k c s j m) i).
    transitivity (sum_over K (coordinates k) (fun n => times K (entry K inv i n e) (delta K n j))).
    { apply sum_over_ext. intros n Hn. f_equal. apply (spins_orthogonal k c s n j Ecs Hn Hj1). }
    clear - Fth FK D Hj1. induction (coordinates k) as [|x l IH]; [destruct Hj1|]. inversion D; subst. unfold sum_over in *. cbn [fold_right].
    destruct Hj1 as [-> |Hj1].
    + unfold delta at 1. rewrite String.eqb_refl. change (fold_right _ (zero K) l) with (sum_over K l (fun m => times K (entry K inv i m e) (delta K m j))).
      rewrite (sum_over_ext K l _ (fun _ => zero K)); [rewrite sum_over_zero by exact FK; ring|].
      intros m Hm. unfold delta. destruct (String.eqb_spec m j) as [-> |]; [contradiction|ring].
    + rewrite IH by auto. unfold delta. destruct (String.eqb_spec x j) as [-> |]; [contradiction|ring].
Qed.

Lemma rotate_determinant (T : trigonometric K add cosine sine) k (a : operand A) : op_wf a -> fits_in (op_shape a) B ->
  exists r d, rotation K cosine sine k a = Ok r /\ (match k with InPlane => det2 K r | _ => det3 K r end) = Ok d /\
    forall e, inside e B -> op_at d e = one K.
Proof.
  intros W Fa. destruct T as (T1 & _ & _). destruct (rotation_spec k a W Fa) as (r & E & Mk & Mf & Nm & Oc & Kr & Ty & R).
  exists r. destruct k.
  - destruct (det2_value K FK B r "x" "y" N Mk Mf Nm Oc) as (d & Ed & _ & _ & Vd). exists d. split; [exact E|]. split; [exact Ed|].
    intros e I. rewrite (Vd e _ I (R e I)), Nm. apply (spins_determinant InPlane), T1.
  - destruct (det3_value K FK B r "x" "y" "z" N Mk Mf Nm Oc) as (d & Ed & _ & _ & Vd). exists d. split; [exact E|]. split; [exact Ed|].
    intros e I. rewrite (Vd e _ I (R e I)), Nm. apply (spins_determinant AboutX), T1.
  - destruct (det3_value K FK B r "x" "y" "z" N Mk Mf Nm Oc) as (d & Ed & _ & _ & Vd). exists d. split; [exact E|]. split; [exact Ed|].
    intros e I. rewrite (Vd e _ I (R e I)), Nm. apply (spins_determinant AboutY), T1.
  - destruct (det3_value K FK B r "x" "y" "z" N Mk Mf Nm Oc) as (d & Ed & _ & _ & Vd). exists d. split; [exact E|]. split; [exact Ed|].
    intros e I. rewrite (Vd e _ I (R e I)), Nm. apply (spins_determinant AboutZ), T1.
Qed.

Lemma rotate_length (T : trigonometric K add cosine sine) k (a : operand A) (v : vec F) : op_wf a -> fits_in (op_shape a) B ->
  vector_ok v -> vector_fits B v -> type_name v = Some (space_type k) -> (forall c, In c (names v) <-> In c (coordinates k)) ->
  exists r w, rotation K cosine sine k a = Ok r /\ matvec K r v = Ok w /\
    forall e V W, inside e B -> vector_reads v e V -> vector_reads w e W -> norm2 K (coordinates k) W = norm2 K (coordinates k) V.
Proof.
  intros Wa Fa Vk Vf Tv Nv. destruct T as (T1 & _ & _).
  destruct (rotate_vector k a v Wa Fa Vk Vf Tv Nv) as (r & w & E & Ew & Wk & Wf & _ & Nw & R). exists r, w. split; [exact E|]. split; [exact Ew|].
  intros e V W I Rv Rw. rewrite <- (norm_rotated k _ _ V (T1 (op_at a e))). unfold norm2. apply sum_over_ext. intros i Hi.
  destruct (proj1 (part_name w i Wk)) as (o & Ho); [now rewrite Nw|].
  now rewrite (Rw i o Ho), (R e V I Rv i o Ho).
Qed.
End Rotation.
