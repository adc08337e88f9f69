(** C80: the inverse of matrices with four or more rows. *)
From Coq Require Import String List Arith ZArith Bool QArith Qcanon.
From Verif Require Import Base Numpy Shapes Scalar Vector Matrix Poly BigMatrix Spec SpecVector SpecMatrix SpecInverse.
From Verif Require MatrixFacts MatrixLaws BigInverseLaws Prop79.
Import ListNotations.
Open Scope nat_scope.
Open Scope list_scope.

Local Notation qK := MatrixLaws.qK.

(** Up to three rows: the inverse of C27, whatever [np.linalg.inv] does. *)
Theorem C80_small : forall (F : Type) (K : arith F) (np_inv : list (list F) -> list (list F)) (m : matrix F),
  length (names m) <= 3 -> matrix_ok m -> m_inverse_any K np_inv m = m_inverse K m.
Proof. intros. now apply BigInverseLaws.small_laws. Qed.
Print Assumptions C80_small.

(** From four rows on, the entries are those of the inverse [N] with the positions of
    rows and columns exchanged, and the two products are the identity exactly when
    the matrix is symmetric by position. *)
Theorem C80_large : forall (F : Type) (K : arith F) (np_inv : list (list F) -> list (list F)), is_field K ->
  forall (B : shape) (m : matrix F) (cs : list string), NoDup (dkeys B) ->
  matrix_ok m -> matrix_fits B m -> ordered_columns m cs -> length cs = length (names m) -> 4 <= length cs ->
  exists inv p q, m_inverse_any K np_inv m = Ok inv /\ matmul K inv m = Ok p /\ matmul K m inv = Ok q /\
    matrix_ok inv /\ matrix_fits B inv /\ names inv = cs /\ ordered_columns inv (names m) /\
    forall e M N, inside e B -> matrix_reads m e M ->
      np_inv (rows_by (names m) cs M) = rows_by cs (names m) N -> two_sided K (names m) cs M N ->
      (forall r c r' c' o, paired (names m) cs r c -> paired (names m) cs r' c' -> cell inv c r' o -> op_at o e = N c' r) /\
      (matrix_reads p e (delta K) <-> symmetric (names m) cs M) /\
      (matrix_reads q e (delta K) <-> symmetric (names m) cs M).
Proof. intros. now apply BigInverseLaws.big_laws. Qed.
Print Assumptions C80_large.

(** Partial: symmetric matrices are inverted. *)
Theorem C80_symmetric_partial : forall (F : Type) (K : arith F) (np_inv : list (list F) -> list (list F)), is_field K ->
  forall (B : shape) (m : matrix F) (cs : list string), NoDup (dkeys B) ->
  matrix_ok m -> matrix_fits B m -> ordered_columns m cs -> length cs = length (names m) -> 4 <= length cs ->
  exists inv p q, m_inverse_any K np_inv m = Ok inv /\ matmul K inv m = Ok p /\ matmul K m inv = Ok q /\
    forall e M N, inside e B -> matrix_reads m e M -> symmetric (names m) cs M ->
      np_inv (rows_by (names m) cs M) = rows_by cs (names m) N -> two_sided K (names m) cs M N ->
      matrix_reads p e (delta K) /\ matrix_reads q e (delta K).
Proof.
  intros F K np_inv FK B m cs NB Mk Fm H L L4.
  destruct (BigInverseLaws.big_laws K FK np_inv B m cs NB Mk Fm H L L4) as (inv & p & q & E1 & E2 & E3 & _ & _ & _ & _ & V).
  exists inv, p, q. split; [exact E1|]. split; [exact E2|]. split; [exact E3|]. intros e M N I R S EN T.
  destruct (V e M N I R EN T) as (_ & P & Q). split; [now apply P|now apply Q].
Qed.
Print Assumptions C80_symmetric_partial.

(** ** Refutation and examples *)
Open Scope string_scope.

Definition num (z : Z) : vec Qc := Leaf (OpNum (Q2Qc (inject_Z z))).
Definition row4 (a b c d : Z) : vec Qc := Node "Nd" [("a", num a); ("b", num b); ("c", num c); ("d", num d)].
Definition matrix4 (w x y z : vec Qc) : matrix Qc := Node "Nd" [("w", Leaf w); ("x", Leaf x); ("y", Leaf y); ("z", Leaf z)].
Definition cols := ["a"; "b"; "c"; "d"].

(** a shear *)
Definition shear : matrix Qc := matrix4 (row4 1 1 0 0) (row4 0 1 0 0) (row4 0 0 1 0) (row4 0 0 0 1).
(** a symmetric matrix *)
Definition sym4 : matrix Qc := matrix4 (row4 2 1 0 0) (row4 1 2 0 0) (row4 0 0 1 0) (row4 0 0 0 4).

Definition leafq (o : operand Qc) : list Q := match o with OpNum x => [this x] | OpArr a => map this (ravel (s_nd a)) end.
Definition showm (r : res (matrix Qc)) : option (list (string * list (list Q))) :=
  match r with
  | Ok m => match m_rows m with
            | Ok rows => Some (map (fun kv => (fst kv, map (fun x => leafq (snd x)) (snd kv))) rows)
            | Err _ => None
            end
  | Err _ => None
  end.

(** with the elimination of Gauss and Jordan for [np.linalg.inv] *)
Example C80_example_shear :
  showm (m_inverse_any qK Prop79.gauss shear) =
    Some [("a", [[1]; [0]; [0]; [0]]); ("b", [[-1]; [1]; [0]; [0]]); ("c", [[0]; [0]; [1]; [0]]); ("d", [[0]; [0]; [0]; [1]])]%Q /\
  showm (inv <- m_inverse_any qK Prop79.gauss shear ;; matmul qK inv shear) =
    Some [("a", [[1]; [1]; [0]; [0]]); ("b", [[-1]; [0]; [0]; [0]]); ("c", [[0]; [0]; [1]; [0]]); ("d", [[0]; [0]; [0]; [1]])]%Q.
Proof. split; vm_compute; reflexivity. Qed.

Example C80_example_symmetric :
  showm (inv <- m_inverse_any qK Prop79.gauss sym4 ;; matmul qK inv sym4) =
    Some [("a", [[1]; [0]; [0]; [0]]); ("b", [[0]; [1]; [0]; [0]]); ("c", [[0]; [0]; [1]; [0]]); ("d", [[0]; [0]; [0]; [1]])]%Q /\
  showm (inv <- m_inverse_any qK Prop79.gauss sym4 ;; matmul qK sym4 inv) =
    Some [("w", [[1]; [0]; [0]; [0]]); ("x", [[0]; [1]; [0]; [0]]); ("y", [[0]; [0]; [1]; [0]]); ("z", [[0]; [0]; [0]; [1]])]%Q.
Proof. split; vm_compute; reflexivity. Qed.

Ltac names_differ := repeat constructor; simpl; intuition discriminate.
Ltac flat_ok := first [apply MatrixLaws.flat_matrix | apply MatrixLaws.flat_vector]; [reflexivity|discriminate|names_differ|repeat apply Forall_cons; try apply Forall_nil].

Lemma matrix4_ok a1 b1 c1 d1 a2 b2 c2 d2 a3 b3 c3 d3 a4 b4 c4 d4 :
  let m := matrix4 (row4 a1 b1 c1 d1) (row4 a2 b2 c2 d2) (row4 a3 b3 c3 d3) (row4 a4 b4 c4 d4) in
  matrix_ok m /\ matrix_fits [] m /\ ordered_columns m cols /\ length cols = length (names m) /\ 4 <= length cols.
Proof.
  intros m. split; [|split; [|split; [|split]]].
  - change m with (MatrixLaws.flat "Nd" ["w"; "x"; "y"; "z"] (map (fun r => MatrixLaws.flat "Nd" cols (leaves r))
      [row4 a1 b1 c1 d1; row4 a2 b2 c2 d2; row4 a3 b3 c3 d3; row4 a4 b4 c4 d4])).
    cbn [map]. flat_ok; flat_ok; repeat constructor; simpl; tauto.
  - intros r c o (p & row & Hp & _ & q & Hq & _). apply MatrixFacts.leaf_In in Hp, Hq.
    destruct Hp as [<- |[<- |[<- |[<- |[]]]]], Hq as [<- |[<- |[<- |[<- |[]]]]]; intros ax n [].
  - intros row Hr. destruct Hr as [<- |[<- |[<- |[<- |[]]]]]; reflexivity.
  - reflexivity.
  - cbn. auto.
Qed.

(** The shear is invertible, and for every [np.linalg.inv] that returns its inverse
    the products with the result are not the identity. *)
Theorem C80_refuted : exists (m : matrix Qc) (cs : list string) (M N : string -> string -> Qc),
  matrix_ok m /\ matrix_fits [] m /\ ordered_columns m cs /\ length cs = length (names m) /\
  matrix_reads m (fun _ => 0) M /\ two_sided qK (names m) cs M N /\
  forall np_inv, np_inv (rows_by (names m) cs M) = rows_by cs (names m) N ->
  exists inv p q, m_inverse_any qK np_inv m = Ok inv /\ matmul qK inv m = Ok p /\ matmul qK m inv = Ok q /\
    ~ matrix_reads p (fun _ => 0) (delta qK) /\ ~ matrix_reads q (fun _ => 0) (delta qK).
Proof.
  destruct (matrix4_ok 1 1 0 0 0 1 0 0 0 0 1 0 0 0 0 1) as (Mk & Fm & Oc & L & L4). fold shear in Mk, Fm, Oc, L.
  set (M := fun r c => MatrixFacts.entry qK shear r c (fun _ => 0)).
  set (N := fun c r => if String.eqb c "a" && String.eqb r "x" then (- (1))%Qc else
    if (String.eqb c "a" && String.eqb r "w") || (String.eqb c "b" && String.eqb r "x") || (String.eqb c "c" && String.eqb r "y") ||
       (String.eqb c "d" && String.eqb r "z") then 1%Qc else 0%Qc).
  exists shear, cols, M, N. split; [exact Mk|]. split; [exact Fm|]. split; [exact Oc|]. split; [exact L|].
  assert (R : matrix_reads shear (fun _ => 0) M) by (apply MatrixLaws.entry_reads; exact Mk). split; [exact R|].
  assert (T : two_sided qK (names shear) cols M N).
  { split; intros a b Ha Hb; destruct Ha as [<- |[<- |[<- |[<- |[]]]]], Hb as [<- |[<- |[<- |[<- |[]]]]];
      apply Qc_is_canon; vm_compute; reflexivity. }
  split; [exact T|]. intros np_inv EN.
  destruct (C80_large Qc qK np_inv MatrixLaws.qK_field [] shear cols (NoDup_nil _) Mk Fm Oc L L4)
    as (inv & p & q & E1 & E2 & E3 & _ & _ & _ & _ & V).
  exists inv, p, q. split; [exact E1|]. split; [exact E2|]. split; [exact E3|].
  destruct (V (fun _ => 0) M N ltac:(intros ? ? []) R EN T) as (_ & P & Q).
  assert (Z : ~ symmetric (names shear) cols M).
  { intros S. assert (X := S "w" "a" "x" "b" ltac:(cbn; auto) ltac:(cbn; auto)). apply (f_equal this) in X. vm_compute in X. discriminate. }
  split; intros H; apply Z; [now apply P|now apply Q].
Qed.
Print Assumptions C80_refuted.
