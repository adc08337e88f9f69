(** The laws of matrix arrays, in the form of the theorems. *)
From Coq Require Import Ascii String List Arith ZArith Bool Lia Field Field_theory.
From Verif Require Import Base BaseFacts Numpy Shapes Scalar Elementwise Vector Matrix
  Spec SpecVector SpecMatrix VectorFacts VectorIndexFacts MatrixFacts.
Import ListNotations.
Open Scope nat_scope.
Open Scope list_scope.

Section Laws.
Context {F : Type} (K : arith F) (FK : is_field K).
Let Fth : field_theory (zero K) (one K) (plus K) (times K) (minus K) (neg K) (over K) (over K (one K)) eq := proj1 FK.
Add Field Kf : Fth.

Lemma reads_entry (m : matrix F) e M C r c : matrix_ok m -> has_columns m C -> matrix_reads m e M ->
  In r (names m) -> In c C -> entry K m r c e = M r c.
Proof.
  intros Mk H R Hr Hc. destruct (proj1 (cell_exists m C r c Mk H) (conj Hr Hc)) as (o & Ho).
  rewrite (entry_cell K m r c o e Mk Ho). symmetry. now apply R.
Qed.

Lemma reads_comp (v : vec F) e V c : vector_ok v -> vector_reads v e V -> In c (names v) -> comp K v c e = V c.
Proof.
  intros Vk R Hc. apply part_name in Hc; [|exact Vk]. destruct Hc as (o & Ho). rewrite (comp_part K v c o e Vk Ho). symmetry. now apply R.
Qed.

Lemma entry_reads (m : matrix F) e : matrix_ok m -> matrix_reads m e (fun r c => entry K m r c e).
Proof. intros M r c o H. now apply entry_cell. Qed.

Lemma comp_reads (v : vec F) e : vector_ok v -> vector_reads v e (fun c => comp K v c e).
Proof. intros V c o H. now apply comp_part. Qed.

Lemma cell_in (m : matrix F) C r c o : matrix_ok m -> has_columns m C -> cell m r c o -> In r (names m) /\ In c C.
Proof. intros M H Ho. apply (cell_exists m C r c M H). eauto. Qed.

Lemma rows_typed_kind (r m2 : matrix F) row2 : In row2 (leaves m2) -> (forall v, In v (leaves r) -> (forall q, kind v q = kind row2 q)) ->
  forall L (t : tree L), rows_typed m2 t -> rows_typed r t.
Proof.
  intros I H L t T v Hv. rewrite <- (T row2 I). unfold type_name. now rewrite (H v Hv).
Qed.

Lemma matmul_value B (m1 m2 : matrix F) C : NoDup (dkeys B) ->
  matrix_ok m1 -> matrix_ok m2 -> matrix_fits B m1 -> matrix_fits B m2 -> has_columns m1 (names m2) -> has_columns m2 C ->
  exists r, matmul K m1 m2 = Ok r /\ matrix_ok r /\ (forall p, kind r p = kind m1 p) /\ names r = names m1 /\
    has_columns r C /\ (forall cs, ordered_columns m2 cs -> ordered_columns r cs) /\
    (forall L (t : tree L), rows_typed m2 t -> rows_typed r t) /\ matrix_fits B r /\
    forall e M1 M2, inside e B -> matrix_reads m1 e M1 -> matrix_reads m2 e M2 ->
      matrix_reads r e (fun i j => sum_over K (names m2) (fun k => times K (M1 i k) (M2 k j))).
Proof.
  intros N M1 M2 F1 F2 H1 H2.
  destruct (matmul_spec K FK B m1 m2 C N M1 M2 F1 F2 H1 H2) as (r & row2 & E & Er & Mr & Kr & Nr & Lr & Cr).
  destruct (row_prototype_ok m2 row2 M2 Er) as (Ir & Rk & _).
  exists r. split; [exact E|]. split; [exact Mr|]. split; [exact Kr|]. split; [exact Nr|].
  assert (Hr : has_columns r C).
  { intros v Hv c. destruct (Lr v Hv) as [_ ->]. apply (H2 row2 Ir). }
  split; [exact Hr|]. split.
  { intros cs Hc v Hv. destruct (Lr v Hv) as [_ ->]. now apply Hc. }
  split; [apply (rows_typed_kind r m2 row2 Ir); intros v Hv; apply (Lr v Hv)|].
  split; [intros i j o Co; apply (Cr i j o Co)|].
  intros e A1 A2 I R1 R2 i j o Co. rewrite (reads_at B _ _ e (Cr i j o Co) I).
  destruct (cell_in r C i j o Mr Hr Co) as [Hi Hj]. rewrite Nr in Hi. apply sum_over_ext. intros k Hk.
  now rewrite (reads_entry m1 e A1 (names m2) i k), (reads_entry m2 e A2 C k j).
Qed.

Lemma matvec_value B (m : matrix F) (v : vec F) : NoDup (dkeys B) ->
  matrix_ok m -> vector_ok v -> matrix_fits B m -> vector_fits B v -> has_columns m (names v) -> rows_typed m v ->
  exists r, matvec K m v = Ok r /\ vector_ok r /\ (forall p, kind r p = kind m p) /\ names r = names m /\ vector_fits B r /\
    forall e M V, inside e B -> matrix_reads m e M -> vector_reads v e V ->
      vector_reads r e (fun i => sum_over K (names v) (fun k => times K (M i k) (V k))).
Proof.
  intros N Mk Vk Fm Fv H Ty. destruct (matvec_spec K FK B m v N Mk Vk Fm Fv H Ty) as (r & E & Rk & Kr & Nr & Pr).
  exists r. split; [exact E|]. split; [exact Rk|]. split; [exact Kr|]. split; [exact Nr|].
  split; [intros c o P; apply (Pr c o P)|].
  intros e M V I R1 R2 i o P. rewrite (reads_at B _ _ e (Pr i o P) I).
  assert (Hi : In i (names m)) by (rewrite <- Nr; apply (part_name r i Rk); eauto). apply sum_over_ext. intros k Hk.
  now rewrite (reads_entry m e M (names v) i k), (reads_comp v e V k).
Qed.

Lemma vecmat_value B (v : vec F) (m : matrix F) C : NoDup (dkeys B) ->
  vector_ok v -> matrix_ok m -> vector_fits B v -> matrix_fits B m ->
  (forall k, In k (names v) <-> In k (names m)) -> has_columns m C ->
  exists r, vecmat K v m = Ok r /\ vector_ok r /\ (forall c, In c (names r) <-> In c C) /\ vector_fits B r /\
    (forall L (t : tree L), rows_typed m t -> type_name r = type_name t) /\
    forall e V M, inside e B -> vector_reads v e V -> matrix_reads m e M ->
      vector_reads r e (fun j => sum_over K (names v) (fun k => times K (V k) (M k j))).
Proof.
  intros N Vk Mk Fv Fm Hk H. destruct (vecmat_spec K FK B v m C N Vk Mk Fv Fm Hk H) as (r & row & E & Er & Rk & Kr & Nr & Pr).
  destruct (row_prototype_ok m row Mk Er) as (Ir & Rk' & _).
  exists r. split; [exact E|]. split; [exact Rk|]. split; [intros c; rewrite Nr; apply (H row Ir)|].
  split; [intros c o P; apply (Pr c o P)|].
  split; [intros L t T; rewrite <- (T row Ir); unfold type_name; now rewrite Kr|].
  intros e V M I R1 R2 j o P. rewrite (reads_at B _ _ e (Pr j o P) I).
  assert (Hj : In j C) by (apply (H row Ir); rewrite <- Nr; apply (part_name r j Rk); eauto). apply sum_over_ext. intros k Hk'.
  rewrite (reads_entry m e M C k j), (reads_comp v e V k); auto. now apply Hk.
Qed.

Lemma dot_value B (v w : vec F) : NoDup (dkeys B) ->
  vector_ok v -> vector_ok w -> vector_fits B v -> vector_fits B w -> (forall k, In k (names v) <-> In k (names w)) ->
  exists o, vec_dot K v w = Ok o /\ op_wf o /\ fits_in (op_shape o) B /\
    forall e V W, inside e B -> vector_reads v e V -> vector_reads w e W ->
      op_at o e = sum_over K (names v) (fun k => times K (V k) (W k)).
Proof.
  intros N Vk Wk Fv Fw H. destruct (vec_dot_spec K FK B v w N Vk Wk Fv Fw H) as (o & E & W1 & W2 & W3).
  exists o. split; [exact E|]. split; [exact W1|]. split; [exact W2|]. intros e V W I R1 R2. rewrite W3 by exact I.
  apply sum_over_ext. intros k Hk. rewrite (reads_comp v e V k), (reads_comp w e W k); auto. now apply H.
Qed.

Lemma transpose_cells (m : matrix F) C : matrix_ok m -> has_columns m C ->
  exists t, m_transpose K m = Ok t /\ matrix_ok t /\ (forall c, In c (names t) <-> In c C) /\ ordered_columns t (names m) /\
    (forall cs, ordered_columns m cs -> names t = cs) /\
    (forall row, In row (leaves t) -> forall q, kind row q = kind m q) /\
    forall i j o, cell t i j o <-> cell m j i o.
Proof.
  intros M H. destruct (transpose_spec K m C M H) as (t & row & E & Er & Mt & Kt & Nt & Lt & Ct).
  destruct (row_prototype_ok m row M Er) as (Ir & Rk & _). exists t. split; [exact E|]. split; [exact Mt|].
  split; [intros c; rewrite Nt; apply (H row Ir)|]. split; [intros v Hv; apply (Lt v Hv)|].
  split; [intros cs Hc; rewrite Nt; now apply Hc|]. split; [intros v Hv; apply (Lt v Hv)|]. exact Ct.
Qed.

Lemma transpose_reads (m t : matrix F) e M : (forall i j o, cell t i j o <-> cell m j i o) ->
  matrix_reads m e M -> matrix_reads t e (fun i j => M j i).
Proof. intros C R i j o Co. apply R. now apply C. Qed.

(** ** Associativity *)

Lemma sum_assoc (l l' : list string) (A Bm : string -> string -> F) (V : string -> F) i :
  sum_over K l (fun k => times K (sum_over K l' (fun j => times K (A i j) (Bm j k))) (V k)) =
  sum_over K l' (fun j => times K (A i j) (sum_over K l (fun k => times K (Bm j k) (V k)))).
Proof.
  transitivity (sum_over K l (fun k => sum_over K l' (fun j => times K (A i j) (times K (Bm j k) (V k))))).
  - apply sum_over_ext. intros k _. rewrite <- (sum_over_times_r K FK). apply sum_over_ext. intros j _. ring.
  - rewrite (sum_over_swap K FK). apply sum_over_ext. intros j _. now rewrite (sum_over_times_l K FK).
Qed.

Lemma matvec_assoc B (m1 m2 : matrix F) (v : vec F) : NoDup (dkeys B) ->
  matrix_ok m1 -> matrix_ok m2 -> vector_ok v -> matrix_fits B m1 -> matrix_fits B m2 -> vector_fits B v ->
  has_columns m1 (names m2) -> rows_typed m1 m2 -> has_columns m2 (names v) -> rows_typed m2 v ->
  exists p q a b, matmul K m1 m2 = Ok p /\ matvec K p v = Ok a /\ matvec K m2 v = Ok q /\ matvec K m1 q = Ok b /\
    (forall p, kind a p = kind b p) /\ names a = names b /\
    forall e V, inside e B -> vector_reads a e V -> vector_reads b e V.
Proof.
  intros N M1 M2 Vk F1 F2 Fv H1 T1 H2 T2.
  destruct (matmul_value B m1 m2 (names v) N M1 M2 F1 F2 H1 H2) as (p & Ep & Mp & Kp & Np & Hp & _ & Tp & Fp & Rp).
  destruct (matvec_value B p v N Mp Vk Fp Fv Hp (Tp _ _ T2)) as (a & Ea & Ak & Ka & Na & Fa & Ra).
  destruct (matvec_value B m2 v N M2 Vk F2 Fv H2 T2) as (q & Eq & Qk & Kq & Nq & Fq & Rq).
  destruct (matvec_value B m1 q N M1 Qk F1 Fq) as (b & Eb & Bk & Kb & Nb & Fb & Rb).
  { now rewrite Nq. }
  { intros row Hr. rewrite (T1 row Hr). unfold type_name. now rewrite Kq. }
  exists p, q, a, b. repeat (split; [assumption|]). split; [intros x; now rewrite Ka, Kb|].
  split; [now rewrite Na, Nb|]. intros e V I RV i o Po.
  assert (Hi : In i (names a)) by (rewrite Na, Np, <- Nb; apply (part_name b i Bk); eauto).
  apply part_name in Hi; [|exact Ak]. destruct Hi as (o' & Po').
  assert (X := Ra e _ _ I (Rp e _ _ I (entry_reads m1 e M1) (entry_reads m2 e M2)) (comp_reads v e Vk) i o' Po').
  assert (Y := Rb e _ _ I (entry_reads m1 e M1) (Rq e _ _ I (entry_reads m2 e M2) (comp_reads v e Vk)) i o Po).
  cbv beta in X, Y. rewrite <- Y, (RV i o' Po'), <- X, Nq. apply sum_assoc with (V := fun k => comp K v k e) (A := fun r c => entry K m1 r c e) (Bm := fun r c => entry K m2 r c e).
Qed.

Lemma matmul_assoc B (m1 m2 m3 : matrix F) C : NoDup (dkeys B) ->
  matrix_ok m1 -> matrix_ok m2 -> matrix_ok m3 -> matrix_fits B m1 -> matrix_fits B m2 -> matrix_fits B m3 ->
  has_columns m1 (names m2) -> has_columns m2 (names m3) -> has_columns m3 C ->
  exists p q a b, matmul K m1 m2 = Ok p /\ matmul K p m3 = Ok a /\ matmul K m2 m3 = Ok q /\ matmul K m1 q = Ok b /\
    (forall p, kind a p = kind b p) /\ names a = names b /\ has_columns a C /\ has_columns b C /\
    forall e M, inside e B -> matrix_reads a e M -> matrix_reads b e M.
Proof.
  intros N M1 M2 M3 F1 F2 F3 H1 H2 H3.
  destruct (matmul_value B m1 m2 (names m3) N M1 M2 F1 F2 H1 H2) as (p & Ep & Mp & Kp & Np & Hp & _ & _ & Fp & Rp).
  destruct (matmul_value B p m3 C N Mp M3 Fp F3 Hp H3) as (a & Ea & Ak & Ka & Na & Ha & _ & _ & Fa & Ra).
  destruct (matmul_value B m2 m3 C N M2 M3 F2 F3 H2 H3) as (q & Eq & Qk & Kq & Nq & Hq & _ & _ & Fq & Rq).
  destruct (matmul_value B m1 q C N M1 Qk F1 Fq) as (b & Eb & Bk & Kb & Nb & Hb & _ & _ & Fb & Rb).
  { now rewrite Nq. }
  { exact Hq. }
  exists p, q, a, b. repeat (split; [assumption|]). split; [intros x; now rewrite Ka, Kb, Kp|].
  split; [now rewrite Na, Nb|]. split; [exact Ha|]. split; [exact Hb|]. intros e M I RM i j o Co.
  destruct (cell_in b C i j o Bk Hb Co) as [Hi Hj].
  destruct (proj1 (cell_exists a C i j Ak Ha)) as (o' & Co'); [split; [now rewrite Na, Np, <- Nb|exact Hj]|].
  assert (X := Ra e _ _ I (Rp e _ _ I (entry_reads m1 e M1) (entry_reads m2 e M2)) (entry_reads m3 e M3) i j o' Co').
  assert (Y := Rb e _ _ I (entry_reads m1 e M1) (Rq e _ _ I (entry_reads m2 e M2) (entry_reads m3 e M3)) i j o Co).
  cbv beta in X, Y. rewrite <- Y, (RM i j o' Co'), <- X, Nq.
  apply sum_assoc with (V := fun k => entry K m3 k j e) (A := fun r c => entry K m1 r c e) (Bm := fun r c => entry K m2 r c e).
Qed.

Lemma transpose_product B (m1 m2 : matrix F) C : NoDup (dkeys B) ->
  matrix_ok m1 -> matrix_ok m2 -> matrix_fits B m1 -> matrix_fits B m2 -> has_columns m1 (names m2) -> has_columns m2 C ->
  exists p pt t1 t2 q, matmul K m1 m2 = Ok p /\ m_transpose K p = Ok pt /\ m_transpose K m1 = Ok t1 /\ m_transpose K m2 = Ok t2 /\
    matmul K t2 t1 = Ok q /\ (forall c, In c (names pt) <-> In c (names q)) /\ ordered_columns pt (names m1) /\ ordered_columns q (names m1) /\
    forall e M, inside e B -> matrix_reads pt e M -> matrix_reads q e M.
Proof.
  intros N M1 M2 F1 F2 H1 H2.
  destruct (matmul_value B m1 m2 C N M1 M2 F1 F2 H1 H2) as (p & Ep & Mp & Kp & Np & Hp & _ & _ & Fp & Rp).
  destruct (transpose_cells p C Mp Hp) as (pt & Et & Mpt & Npt & Opt & _ & _ & Cpt).
  destruct (transpose_cells m1 (names m2) M1 H1) as (t1 & Et1 & Mt1 & Nt1 & Ot1 & _ & _ & Ct1).
  destruct (transpose_cells m2 C M2 H2) as (t2 & Et2 & Mt2 & Nt2 & Ot2 & _ & _ & Ct2).
  assert (Ft1 : matrix_fits B t1) by (intros i j o Co; apply Ct1 in Co; eapply F1; eauto).
  assert (Ft2 : matrix_fits B t2) by (intros i j o Co; apply Ct2 in Co; eapply F2; eauto).
  assert (Ht2 : has_columns t2 (names t1)).
  { intros row Hr c. rewrite (Ot2 row Hr). symmetry. apply Nt1. }
  destruct (matmul_value B t2 t1 (names m1) N Mt2 Mt1 Ft2 Ft1 Ht2) as (q & Eq & Mq & Kq & Nq & Hq & Oq & _ & Fq & Rq).
  { intros row Hr c. now rewrite (Ot1 row Hr). }
  exists p, pt, t1, t2, q. repeat (split; [assumption|]).
  split; [intros c; rewrite Npt, Nq, Nt2; tauto|]. split; [now rewrite <- Np|]. split; [now apply Oq|].
  intros e M I RM i j o Co. destruct (cell_in q (names m1) i j o Mq Hq Co) as [Hi Hj].
  assert (Hpt : has_columns pt (names m1)).
  { intros row Hr c. now rewrite (Opt row Hr), Np. }
  destruct (proj1 (cell_exists pt (names m1) i j Mpt Hpt)) as (o' & Co').
  { split; [|exact Hj]. apply Npt. rewrite Nq in Hi. now apply Nt2. }
  rewrite (RM i j o' Co'). apply Cpt in Co'.
  assert (X := Rp e _ _ I (entry_reads m1 e M1) (entry_reads m2 e M2) j i o' Co').
  assert (Y := Rq e _ _ I (transpose_reads m2 t2 e _ Ct2 (entry_reads m2 e M2)) (transpose_reads m1 t1 e _ Ct1 (entry_reads m1 e M1)) i j o Co).
  cbv beta in X, Y. rewrite <- X, <- Y.
  rewrite (sum_over_same K FK (names t1) (names m2)); [|apply Mt1|apply M2|exact Nt1].
  apply sum_over_ext. intros k _. ring.
Qed.

(** ** Linearity *)

Lemma matvec_linear B (m : matrix F) (u v w : vec F) : NoDup (dkeys B) ->
  matrix_ok m -> matrix_fits B m -> (forall x, In x [u; v; w] -> vector_ok x /\ vector_fits B x /\ has_columns m (names x) /\ rows_typed m x) ->
  exists a b c, matvec K m u = Ok a /\ matvec K m v = Ok b /\ matvec K m w = Ok c /\
    names a = names m /\ names b = names m /\ names c = names m /\
    forall e x y V W, inside e B -> vector_reads v e V -> vector_reads w e W ->
      vector_reads u e (fun k => plus K (times K x (V k)) (times K y (W k))) ->
      forall V' W', vector_reads b e V' -> vector_reads c e W' ->
        vector_reads a e (fun k => plus K (times K x (V' k)) (times K y (W' k))).
Proof.
  intros N Mk Fm H.
  destruct (H u) as (Uk & Fu & Hu & Tu); [simpl; tauto|].
  destruct (H v) as (Vk & Fv & Hv & Tv); [simpl; tauto|].
  destruct (H w) as (Wk & Fw & Hw & Tw); [simpl; tauto|].
  destruct (matvec_value B m u N Mk Uk Fm Fu Hu Tu) as (a & Ea & Ak & Ka & Na & Fa & Ra).
  destruct (matvec_value B m v N Mk Vk Fm Fv Hv Tv) as (b & Eb & Bk & Kb & Nb & Fb & Rb).
  destruct (matvec_value B m w N Mk Wk Fm Fw Hw Tw) as (c & Ec & Ck & Kc & Nc & Fc & Rc).
  exists a, b, c. repeat (split; [assumption|]). intros e x y V W I RV RW RU V' W' RV' RW' i o Po.
  assert (Hi : In i (names m)) by (rewrite <- Na; apply (part_name a i Ak); eauto).
  assert (Hib := Hi). rewrite <- Nb in Hib. apply part_name in Hib; [|exact Bk]. destruct Hib as (ob & Pb).
  assert (Hic := Hi). rewrite <- Nc in Hic. apply part_name in Hic; [|exact Ck]. destruct Hic as (oc & Pc).
  rewrite (RV' i ob Pb), (RW' i oc Pc).
  rewrite <- (Rb e _ _ I (entry_reads m e Mk) RV i ob Pb), <- (Rc e _ _ I (entry_reads m e Mk) RW i oc Pc),
    <- (Ra e _ _ I (entry_reads m e Mk) RU i o Po).
  assert (Row : exists row, In row (leaves m)).
  { destruct (row_prototype_intro m _ Mk Hu) as (row & _ & Ir & _). eauto. }
  destruct Row as (row & Ir).
  rewrite (sum_over_same K FK (names v) (names u)); [|apply Vk|apply Uk|intros k; rewrite <- (Hu row Ir k); symmetry; apply (Hv row Ir k)].
  rewrite (sum_over_same K FK (names w) (names u)); [|apply Wk|apply Uk|intros k; rewrite <- (Hu row Ir k); symmetry; apply (Hw row Ir k)].
  rewrite <- !(sum_over_times_l K FK), <- (sum_over_plus K FK). apply sum_over_ext. intros k _. ring.
Qed.

(** ** Inverse *)

Lemma expand_ext (sub sub' : list string -> F) (f g : string -> F) after : forall before,
  (forall c, In c after -> f c = g c) -> (forall cs, incl cs (before ++ after) -> sub cs = sub' cs) ->
  expand K sub f before after = expand K sub' g before after.
Proof.
  induction after as [|c after IH]; intros before Hf Hs; [reflexivity|]. simpl. rewrite (Hf c) by now left. f_equal.
  - f_equal. apply Hs. intros x Hx. apply in_app_or in Hx. apply in_or_app. destruct Hx; [now left|right; now right].
  - apply IH; [intros; apply Hf; now right|]. intros cs Hc. apply Hs. intros x Hx. specialize (Hc x Hx).
    rewrite <- app_assoc in Hc. exact Hc.
Qed.

Lemma determinant_ext rs : forall cs (M M' : string -> string -> F), (forall r c, In r rs -> In c cs -> M r c = M' r c) ->
  determinant K rs cs M = determinant K rs cs M'.
Proof.
  induction rs as [|r rs IH]; intros cs M M' H; [reflexivity|]. simpl. apply expand_ext.
  - intros c Hc. apply H; [now left|exact Hc].
  - intros cs' Hi. apply IH. intros r' c Hr Hc. apply H; [now right|]. exact (Hi c Hc).
Qed.

Lemma inverse_laws B (m : matrix F) cs : NoDup (dkeys B) ->
  matrix_ok m -> matrix_fits B m -> ordered_columns m cs -> length cs = length (names m) -> length cs <= 3 ->
  exists inv p q, m_inverse K m = Ok inv /\ matmul K inv m = Ok p /\ matmul K m inv = Ok q /\
    matrix_ok inv /\ matrix_fits B inv /\ names inv = cs /\ ordered_columns inv (names m) /\
    (forall row, In row (leaves inv) -> forall x, kind row x = kind m x) /\
    (forall L (t : tree L), rows_typed m t -> type_name inv = type_name t) /\
    forall e M, inside e B -> matrix_reads m e M -> determinant K (names m) cs M <> zero K ->
      matrix_reads p e (delta K) /\ matrix_reads q e (delta K).
Proof.
  intros N Mk Fm H L L3. assert (Hc := ordered_has m cs H).
  destruct (inverse_spec K FK B m cs N Mk Fm H L L3) as (inv & row & Ei & Er & Mi & Ki & Ni & Li & Fi & X).
  destruct (row_prototype_ok m row Mk Er) as (Ir & Rk & _).
  assert (Oi : ordered_columns inv (names m)) by (intros v Hv; apply (Li v Hv)).
  assert (Hi := ordered_has inv _ Oi).
  destruct (matmul_value B inv m cs N Mi Mk Fi Fm Hi Hc) as (p & Ep & Mp & _ & Np & Hp & _ & _ & _ & Rp).
  destruct (matmul_value B m inv (names m) N Mk Mi Fm Fi) as (q & Eq & Mq & _ & Nq & Hq & _ & _ & _ & Rq).
  { now rewrite Ni. }
  { exact Hi. }
  exists inv, p, q. repeat (split; [assumption|]). split; [intros v Hv; apply (Li v Hv)|].
  split; [intros L' t T; rewrite <- (T row Ir); unfold type_name; now rewrite Ki|].
  intros e M I RM D. destruct (X e I) as [X1 X2].
  { intros Z. apply D. rewrite <- Z. apply determinant_ext. intros r c Hr Hcc. symmetry. eapply reads_entry; eauto. }
  split.
  - intros i j o Co. destruct (cell_in p cs i j o Mp Hp Co) as [Hpi Hpj]. rewrite Np, Ni in Hpi.
    rewrite <- (X1 i j Hpi Hpj). now apply (Rp e _ _ I (entry_reads inv e Mi) (entry_reads m e Mk) i j o Co).
  - intros i j o Co. destruct (cell_in q (names m) i j o Mq Hq Co) as [Hqi Hqj]. rewrite Nq in Hqi.
    rewrite <- (X2 i j Hqi Hqj). assert (Z := Rq e _ _ I (entry_reads m e Mk) (entry_reads inv e Mi) i j o Co).
    cbv beta in Z. now rewrite Ni in Z.
Qed.

(** ** Determinants *)

Lemma det2_value B (m : matrix F) c1 c2 : NoDup (dkeys B) ->
  matrix_ok m -> matrix_fits B m -> names m = ["x"; "y"]%string -> ordered_columns m [c1; c2] ->
  exists o, det2 K m = Ok o /\ op_wf o /\ fits_in (op_shape o) B /\
    forall e M, inside e B -> matrix_reads m e M -> op_at o e = determinant K (names m) [c1; c2] M.
Proof.
  intros N Mk Fm Nm H. destruct (rows_table m _ Mk H) as (E & Lm & Lv).
  unfold det2. rewrite m_rows_eq by exact Mk. cbn [bind]. rewrite (square_true m _ Mk H) by now rewrite Nm. cbn [negb].
  assert (G : forall v o, In v (leaves m) -> In o (leaves v) -> reads B o (op_at o)).
  { intros v o Hv Ho. destruct (cells_good B m v o Mk Fm Hv Ho). now apply reads_self. }
  assert (En := fun e M r c => fun R Hr Hc => reads_entry m e M [c1; c2] r c Mk (ordered_has m _ H) R Hr Hc).
  assert (Nd : NoDup [c1; c2]).
  { destruct (leaves m) as [|v ls] eqn:El; [rewrite Nm in Lm; discriminate|].
    rewrite <- (H v) by (rewrite El; now left). apply (row_ok m v Mk). rewrite El. now left. }
  unfold entry in En. rewrite E in *. rewrite Nm in *. clear H Fm Mk E.
  destruct (leaves m) as [|v1 [|v2 [|]]]; try discriminate.
  assert (L1 := Lv v1 ltac:(simpl; tauto)). assert (G1 := fun o => G v1 o ltac:(simpl; tauto)).
  assert (L2 := Lv v2 ltac:(simpl; tauto)). assert (G2 := fun o => G v2 o ltac:(simpl; tauto)). cbn [map] in *.
  destruct (leaves v1) as [|a [|b [|]]]; try discriminate. destruct (leaves v2) as [|c [|d [|]]]; try discriminate.
  assert (Ra := G1 a ltac:(simpl; tauto)). assert (Rb := G1 b ltac:(simpl; tauto)).
  assert (Rc := G2 c ltac:(simpl; tauto)). assert (Rd := G2 d ltac:(simpl; tauto)). cbn [combine dget String.eqb Ascii.eqb Bool.eqb] in *.
  destruct (op2_reads K B (times K) a d _ _ N Ra Rd) as (o1 & E1 & R1). rewrite E1. cbn [bind].
  destruct (op2_reads K B (times K) b c _ _ N Rb Rc) as (o2 & E2 & R2). rewrite E2. cbn [bind].
  destruct (op2_reads K B (minus K) o1 o2 _ _ N R1 R2) as (o3 & E3 & R3). rewrite E3.
  assert (Hc : c1 <> c2) by (intros ->; inversion Nd; simpl in *; tauto).
  exists o3. split; [reflexivity|]. split; [apply R3|]. split; [apply R3|]. intros e M I RM. rewrite (reads_at B _ _ e R3 I).
  cbn [determinant expand app].
  rewrite <- !(En e M) by (first [exact RM | simpl; tauto]). cbn [String.eqb Ascii.eqb Bool.eqb]. eqbs. ring.
Qed.

Lemma det3_value B (m : matrix F) c1 c2 c3 : NoDup (dkeys B) ->
  matrix_ok m -> matrix_fits B m -> names m = ["x"; "y"; "z"]%string -> ordered_columns m [c1; c2; c3] ->
  exists o, det3 K m = Ok o /\ op_wf o /\ fits_in (op_shape o) B /\
    forall e M, inside e B -> matrix_reads m e M -> op_at o e = determinant K (names m) [c1; c2; c3] M.
Proof.
  intros N Mk Fm Nm H. destruct (rows_table m _ Mk H) as (E & Lm & Lv).
  unfold det3. rewrite m_rows_eq by exact Mk. cbn [bind]. rewrite (square_true m _ Mk H) by now rewrite Nm. cbn [negb].
  assert (G : forall v o, In v (leaves m) -> In o (leaves v) -> reads B o (op_at o)).
  { intros v o Hv Ho. destruct (cells_good B m v o Mk Fm Hv Ho). now apply reads_self. }
  assert (En := fun e M r c => fun R Hr Hc => reads_entry m e M [c1; c2; c3] r c Mk (ordered_has m _ H) R Hr Hc).
  assert (Nd : NoDup [c1; c2; c3]).
  { destruct (leaves m) as [|v ls] eqn:El; [rewrite Nm in Lm; discriminate|].
    rewrite <- (H v) by (rewrite El; now left). apply (row_ok m v Mk). rewrite El. now left. }
  unfold entry in En. rewrite E in *. rewrite Nm in *. clear H Fm Mk E.
  destruct (leaves m) as [|v1 [|v2 [|v3 [|]]]]; try discriminate.
  assert (L1 := Lv v1 ltac:(simpl; tauto)). assert (G1 := fun o => G v1 o ltac:(simpl; tauto)).
  assert (L2 := Lv v2 ltac:(simpl; tauto)). assert (G2 := fun o => G v2 o ltac:(simpl; tauto)).
  assert (L3 := Lv v3 ltac:(simpl; tauto)). assert (G3 := fun o => G v3 o ltac:(simpl; tauto)). cbn [map] in *.
  destruct (leaves v1) as [|a [|b [|c [|]]]]; try discriminate. destruct (leaves v2) as [|d [|e [|f [|]]]]; try discriminate.
  destruct (leaves v3) as [|g [|h [|i [|]]]]; try discriminate.
  assert (Ra := G1 a ltac:(simpl; tauto)). assert (Rb := G1 b ltac:(simpl; tauto)). assert (Rc := G1 c ltac:(simpl; tauto)).
  assert (Rd := G2 d ltac:(simpl; tauto)). assert (Re := G2 e ltac:(simpl; tauto)). assert (Rf := G2 f ltac:(simpl; tauto)).
  assert (Rg := G3 g ltac:(simpl; tauto)). assert (Rh := G3 h ltac:(simpl; tauto)). assert (Ri := G3 i ltac:(simpl; tauto)).
  clear G G1 G2 G3.
  cbn [combine dget String.eqb Ascii.eqb Bool.eqb] in *. unfold det3_expr, mul3.
  assert (Hc : c1 <> c2 /\ c1 <> c3 /\ c2 <> c3).
  { inversion Nd as [|? ? X Y]; subst. inversion Y; subst. simpl in *. repeat split; intros ->; tauto. }
  destruct Hc as (Hc1 & Hc2 & Hc3).
  repeat step K B N. eexists. split; [reflexivity|].
  match goal with |- op_wf ?x /\ _ => match goal with R : reads B x _ |- _ => rename R into Rz end end. split; [apply Rz|]. split; [apply Rz|]. intros ev M I RM. rewrite (reads_at B _ _ ev Rz I).
  cbn [determinant expand app].
  rewrite <- !(En ev M) by (first [exact RM | simpl; tauto]). cbn [String.eqb Ascii.eqb Bool.eqb]. eqbs. ring.
Qed.

Lemma determinant_product (rs ks cs : list string) (A Bm : string -> string -> F) :
  length rs = length ks -> length cs = length ks -> length ks <= 3 ->
  determinant K rs cs (fun i j => sum_over K ks (fun k => times K (A i k) (Bm k j))) =
  times K (determinant K rs ks A) (determinant K ks cs Bm).
Proof.
  intros L1 L2 L3.
  destruct ks as [|k1 [|k2 [|k3 [|]]]]; try (simpl in L3; lia);
    destruct rs as [|r1 [|r2 [|r3 [|]]]]; try discriminate; destruct cs as [|c1 [|c2 [|c3 [|]]]]; try discriminate;
    cbn [determinant expand app]; unfold sum_over; cbn [fold_right]; ring.
Qed.

Lemma det2_product B (m1 m2 : matrix F) c1 c2 : NoDup (dkeys B) ->
  matrix_ok m1 -> matrix_ok m2 -> matrix_fits B m1 -> matrix_fits B m2 ->
  names m1 = ["x"; "y"]%string -> names m2 = ["x"; "y"]%string -> ordered_columns m1 (names m2) -> ordered_columns m2 [c1; c2] ->
  exists p d d1 d2, matmul K m1 m2 = Ok p /\ det2 K p = Ok d /\ det2 K m1 = Ok d1 /\ det2 K m2 = Ok d2 /\
    forall e, inside e B -> op_at d e = times K (op_at d1 e) (op_at d2 e).
Proof.
  intros N M1 M2 F1 F2 N1 N2 O1 O2.
  destruct (matmul_value B m1 m2 [c1; c2] N M1 M2 F1 F2 (ordered_has _ _ O1) (ordered_has _ _ O2)) as (p & Ep & Mp & Kp & Np & Hp & Op & _ & Fp & Rp).
  destruct (det2_value B p c1 c2 N Mp Fp) as (d & Ed & _ & _ & Vd); [congruence|now apply Op|].
  destruct (det2_value B m1 "x" "y" N M1 F1 N1) as (d1 & Ed1 & _ & _ & Vd1); [now rewrite <- N2|].
  destruct (det2_value B m2 c1 c2 N M2 F2 N2 O2) as (d2 & Ed2 & _ & _ & Vd2).
  exists p, d, d1, d2. repeat (split; [assumption|]). intros e I.
  rewrite (Vd e _ I (Rp e _ _ I (entry_reads m1 e M1) (entry_reads m2 e M2))), (Vd1 e _ I (entry_reads m1 e M1)), (Vd2 e _ I (entry_reads m2 e M2)).
  rewrite Np, N1, N2. apply determinant_product; simpl; lia.
Qed.

Lemma det3_product B (m1 m2 : matrix F) c1 c2 c3 : NoDup (dkeys B) ->
  matrix_ok m1 -> matrix_ok m2 -> matrix_fits B m1 -> matrix_fits B m2 ->
  names m1 = ["x"; "y"; "z"]%string -> names m2 = ["x"; "y"; "z"]%string ->
  ordered_columns m1 (names m2) -> ordered_columns m2 [c1; c2; c3] ->
  exists p d d1 d2, matmul K m1 m2 = Ok p /\ det3 K p = Ok d /\ det3 K m1 = Ok d1 /\ det3 K m2 = Ok d2 /\
    forall e, inside e B -> op_at d e = times K (op_at d1 e) (op_at d2 e).
Proof.
  intros N M1 M2 F1 F2 N1 N2 O1 O2.
  destruct (matmul_value B m1 m2 [c1; c2; c3] N M1 M2 F1 F2 (ordered_has _ _ O1) (ordered_has _ _ O2)) as (p & Ep & Mp & Kp & Np & Hp & Op & _ & Fp & Rp).
  destruct (det3_value B p c1 c2 c3 N Mp Fp) as (d & Ed & _ & _ & Vd); [congruence|now apply Op|].
  destruct (det3_value B m1 "x" "y" "z" N M1 F1 N1) as (d1 & Ed1 & _ & _ & Vd1); [now rewrite <- N2|].
  destruct (det3_value B m2 c1 c2 c3 N M2 F2 N2 O2) as (d2 & Ed2 & _ & _ & Vd2).
  exists p, d, d1, d2. repeat (split; [assumption|]). intros e I.
  rewrite (Vd e _ I (Rp e _ _ I (entry_reads m1 e M1) (entry_reads m2 e M2))), (Vd1 e _ I (entry_reads m1 e M1)), (Vd2 e _ I (entry_reads m2 e M2)).
  rewrite Np, N1, N2. apply determinant_product; simpl; lia.
Qed.

Lemma matmul_refuses (m1 m2 : matrix F) :
  (forall C, matrix_ok m1 -> matrix_ok m2 -> has_columns m1 C -> ~ (forall k, In k C <-> In k (names m2)) -> matmul K m1 m2 = Err TypeError) /\
  (matrix_ok m1 -> (forall C, ~ has_columns m1 C) -> matmul K m1 m2 = Err ValueError).
Proof.
  split; [intros C; apply matmul_mismatch|]. intros M H. unfold matmul. rewrite m_rows_eq by exact M. cbn [bind].
  now rewrite inconsistent_prototype.
Qed.

Lemma matvec_refuses (m : matrix F) (v : vec F) :
  (forall C, matrix_ok m -> vector_ok v -> has_columns m C -> ~ (forall k, In k C <-> In k (names v)) -> matvec K m v = Err TypeError) /\
  (matrix_ok m -> (forall C, ~ has_columns m C) -> matvec K m v = Err ValueError).
Proof.
  split; [intros C; apply matvec_mismatch|]. intros M H. unfold matvec. rewrite m_rows_eq by exact M. cbn [bind].
  now rewrite inconsistent_prototype.
Qed.
End Laws.

(** ** Flat vectors and matrices *)

Definition flat {L} (ty : string) (ns : list string) (ls : list L) : tree L := Node ty (combine ns (map (@Leaf L) ls)).

Lemma flat_keys {L} (ns : list string) (ls : list L) : length ns = length ls -> map fst (combine ns (map (@Leaf L) ls)) = ns.
Proof. intros E. apply CartesianFacts.map_fst_combine. now rewrite map_length. Qed.

Lemma flat_tree {L} (P : L -> Prop) ty ns (ls : list L) : length ns = length ls -> NoDup ns -> Forall P ls -> tree_ok P (flat ty ns ls).
Proof.
  intros E N W. constructor; [now rewrite flat_keys|]. intros c x H. apply in_combine_r, in_map_iff in H. destruct H as (o & <- & Ho).
  constructor. rewrite Forall_forall in W. now apply W.
Qed.

Lemma flat_names {L} ty ns (ls : list L) : length ns = length ls -> names (flat ty ns ls) = ns.
Proof.
  unfold names. simpl. revert ls. induction ns as [|n ns IH]; intros [|o os] E; try discriminate; [reflexivity|]. simpl. f_equal. apply IH. now injection E.
Qed.

Lemma flat_filled {L} ty ns (ls : list L) : length ns = length ls -> ls <> [] -> filled (flat ty ns ls).
Proof.
  intros E H [|c p] ty' cs X; simpl in X.
  - injection X as <- <-. rewrite flat_keys by exact E. intros ->. destruct ls; [congruence|discriminate].
  - destruct (dget (combine ns (map (@Leaf L) ls)) c) as [x|] eqn:D; [|discriminate].
    apply dget_In, in_combine_r, in_map_iff in D. destruct D as (o & <- & _). destruct p; discriminate.
Qed.

Lemma flat_vector {A} ty ns (os : list (operand A)) : length ns = length os -> os <> [] -> NoDup ns -> Forall op_wf os -> vector_ok (flat ty ns os).
Proof.
  intros E H N W. split; [unfold is_node, flat; eauto|]. split; [now apply flat_tree|]. split; [now rewrite flat_names|now apply flat_filled].
Qed.

Lemma flat_matrix {A} ty ns (rows : list (vec A)) : length ns = length rows -> rows <> [] -> NoDup ns -> Forall vector_ok rows -> matrix_ok (flat ty ns rows).
Proof.
  intros E H N W. split; [unfold is_node, flat; eauto|]. split; [now apply flat_tree|]. split; [now rewrite flat_names|now apply flat_filled].
Qed.

(** the rational numbers *)
From Coq Require Import QArith Qcanon.

Definition qK : arith Qc :=
  mkArith _ (Q2Qc 0) (Q2Qc 1) Qcplus Qcmult Qcminus Qcopp Qcdiv (fun x => if Qc_eq_dec x (Q2Qc 0) then true else false).

Lemma qK_field : is_field qK.
Proof.
  split.
  - constructor; simpl.
    + exact Qcrt.
    + discriminate.
    + intros p q. unfold Qcdiv. now rewrite Qcmult_1_l.
    + intros p H. unfold Qcdiv. rewrite Qcmult_1_l. now apply Qcmult_inv_l.
  - intros x. simpl. destruct (Qc_eq_dec x (Q2Qc 0)); split; intros; congruence.
Qed.
