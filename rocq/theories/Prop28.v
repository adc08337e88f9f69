(** C28: transformations compose as functions do. *)
From Coq Require Import Ascii String List Arith ZArith QArith Qcanon Bool Lia.
From Verif Require Import Base Numpy Shapes Scalar Elementwise Vector Matrix Geometry Transform
  Spec SpecVector SpecMatrix SpecTransform MatrixFacts MatrixLaws TransformFacts.
Import ListNotations.
Open Scope nat_scope.
Open Scope list_scope.

(** Calling a transformation takes the components of the vector where [means] says. *)
Theorem C28_call :
  forall (F : Type) (K : arith F), is_field K ->
  forall (B : shape), NoDup (dkeys B) ->
  forall (p q : tree unit) (t : trans F) (f : action) (v : vec F), means K B any p q t f -> member B p v ->
  exists w, apply K t v = Ok w /\ member B q w /\
    forall e V, inside e B -> vector_reads v e V -> vector_reads w e (f e V).
Proof. exact @call_law. Qed.
Print Assumptions C28_call.

(** [(a @ b)(v)] is [a(b(v))]. *)
Theorem C28_compose :
  forall (F : Type) (K : arith F), is_field K ->
  forall (B : shape), NoDup (dkeys B) ->
  forall (p q s : tree unit) (a b : trans F) (f g : action) (v : vec F),
  means K B any q s a g -> means K B any p q b f -> member B p v ->
  exists c x y z, tmatmul K a b = Ok c /\ apply K c v = Ok x /\ apply K b v = Ok y /\ apply K a y = Ok z /\
    member B s x /\ agree B x z.
Proof. exact @compose_law. Qed.
Print Assumptions C28_compose.

(** The function [compose], where [None] is the identity. *)
Theorem C28_compose_none :
  forall (F : Type) (K : arith F), is_field K ->
  forall (B : shape), NoDup (dkeys B) ->
  forall (p q s : tree unit) (a b : option (trans F)) (f g : action) (v : vec F),
  means K B any q s (or_identity a) g -> means K B any p q (or_identity b) f -> member B p v ->
  exists c x y z, compose K a b = Ok c /\ apply K (or_identity c) v = Ok x /\
    apply K (or_identity b) v = Ok y /\ apply K (or_identity a) y = Ok z /\ member B s x /\ agree B x z.
Proof. exact @compose_none. Qed.
Print Assumptions C28_compose_none.

(** [(a @ b) @ c] and [a @ (b @ c)] are the same function. *)
Theorem C28_associative :
  forall (F : Type) (K : arith F), is_field K ->
  forall (B : shape), NoDup (dkeys B) ->
  forall (p q r s : tree unit) (a b c : trans F) (f g h : action) (v : vec F),
  means K B any r s a h -> means K B any q r b g -> means K B any p q c f -> member B p v ->
  exists ab bc l m x y, tmatmul K a b = Ok ab /\ tmatmul K ab c = Ok l /\ tmatmul K b c = Ok bc /\ tmatmul K a bc = Ok m /\
    apply K l v = Ok x /\ apply K m v = Ok y /\ member B s x /\ agree B x y.
Proof. exact @assoc_law. Qed.
Print Assumptions C28_associative.

(** A list applies its elements in order; in reverse order when extrinsic. *)
Theorem C28_list :
  forall (F : Type) (K : arith F), is_field K ->
  forall (B : shape), NoDup (dkeys B) ->
  forall (p q : tree unit) (l : list (trans F)) (intrinsic : bool) (f : action) (v : vec F),
  means K B any p q (Sequence l intrinsic) f -> member B p v ->
  exists x y, apply K (Sequence l intrinsic) v = Ok x /\
    foldM (fun v t => apply K t v) (if intrinsic then l else rev l) v = Ok y /\
    member B q x /\ agree B x y.
Proof. exact @list_law. Qed.
Print Assumptions C28_list.

(** Partial: the inverse undoes the transformation on both sides when the linear
    parts have at most three rows, all of one kind, and a determinant different
    from zero.  Missing: four rows and more.  Rows that list the columns in
    different orders are refuted below. *)
Theorem C28_inverse_partial :
  forall (F : Type) (K : arith F), is_field K ->
  forall (B : shape), NoDup (dkeys B) ->
  forall (p q : tree unit) (a : trans F) (f : action), means K B (regular K B) p q a f ->
  exists a', invert K a = Ok a' /\
    (forall v : vec F, member B p v -> exists x y, apply K a v = Ok x /\ apply K a' x = Ok y /\ member B q x /\ member B p y /\ agree B y v) /\
    (forall w : vec F, member B q w -> exists x y, apply K a' w = Ok x /\ apply K a x = Ok y /\ member B p x /\ member B q y /\ agree B y w).
Proof. exact @inverse_law. Qed.
Print Assumptions C28_inverse_partial.

(** Partial in the same way: the inverse of [a @ b] is the inverse of [a] followed by that of [b]. *)
Theorem C28_inverse_product_partial :
  forall (F : Type) (K : arith F), is_field K ->
  forall (B : shape), NoDup (dkeys B) ->
  forall (p q s : tree unit) (a b : trans F) (f g : action) (w : vec F),
  means K B (regular K B) q s a g -> means K B (regular K B) p q b f -> member B s w ->
  exists c c' a' b' x y z, tmatmul K a b = Ok c /\ invert K c = Ok c' /\ invert K a = Ok a' /\ invert K b = Ok b' /\
    apply K c' w = Ok x /\ apply K a' w = Ok y /\ apply K b' y = Ok z /\ member B p x /\ agree B x z.
Proof. exact @inverse_product_law. Qed.
Print Assumptions C28_inverse_product_partial.

Open Scope string_scope.

(** ** Examples over the rational numbers *)

Definition num (z : Z) : vec Qc := Leaf (OpNum (Q2Qc (inject_Z z))).
Definition arr (ax : string) (l : list Z) : vec Qc :=
  Leaf (OpArr (mkS (of_list (Q2Qc 0) [length l] (map (fun z => Q2Qc (inject_Z z)) l)) [ax])).
Definition leafq (o : operand Qc) : list Q := match o with OpNum x => [this x] | OpArr a => map this (ravel (s_nd a)) end.
Definition showv (r : res (vec Qc)) : option (list (string * (shape * list Q))) :=
  match r with Ok v => Some (map (fun kv => (fst kv, (op_shape (snd kv), leafq (snd kv)))) (cartesian_nd v)) | Err _ => None end.

(** The kind of a flat vector with the components x and y; a matrix and two
    vectors of this kind, with entries along axes. *)
Definition ex_p : tree unit := Node "C2" [("x", Leaf tt); ("y", Leaf tt)].
Definition ex_m : matrix Qc :=
  Node "C2" [("x", Leaf (Node "C2" [("x", arr "t" [1; 2]); ("y", num 3)]));
             ("y", Leaf (Node "C2" [("x", num 0); ("y", num 2)]))]%Z.
Definition ex_u : vec Qc := Node "C2" [("x", num 10); ("y", arr "s" [1; 2; 3])]%Z.
Definition ex_v : vec Qc := Node "C2" [("x", arr "s" [1; 0; 5]); ("y", num 7)]%Z.
Definition ex_B : shape := [("t", 2); ("s", 3)].

Definition ex_a : trans Qc := Sequence [Translation ex_u; Linear ex_m; Sequence [Identity; Affine ex_m ex_v] false] false.
Definition ex_b : trans Qc := Sequence [Linear ex_m; Translation ex_v] true.

Ltac names_differ := repeat constructor; simpl; intuition discriminate.
Ltac flat_ok := first [apply flat_matrix | apply flat_vector]; [reflexivity|discriminate|names_differ|repeat apply Forall_cons; try apply Forall_nil].
Ltac fits := intros ?ax ?n ?H; vm_compute in H; first [contradiction | destruct H as [H|[]]; injection H as <- <-; eexists; split; [simpl; eauto|now right]].

Lemma ex_space : space ex_p.
Proof.
  split; [now eexists _, _|]. split; [|split; [names_differ|]].
  - constructor; [names_differ|]. intros c t H. destruct H as [H|[H|[]]]; injection H as <- <-; now constructor.
  - intros [|c [|d q]] ty cs H; simpl in H.
    + injection H as <- <-. discriminate.
    + destruct (String.eqb c "x"); [discriminate|]. destruct (String.eqb c "y"); discriminate.
    + destruct (String.eqb c "x"); [discriminate|]. destruct (String.eqb c "y"); discriminate.
Qed.

Lemma ex_kind (a b : operand Qc) : of_kind ex_p (Node "C2" [("x", Leaf a); ("y", Leaf b)]).
Proof.
  intros [|c [|d q]]; [reflexivity| |]; cbn; destruct (String.eqb c "x"); try reflexivity; destruct (String.eqb c "y"); reflexivity.
Qed.

Lemma ex_member (a b : operand Qc) : op_wf a -> op_wf b -> fits_in (op_shape a) ex_B -> fits_in (op_shape b) ex_B ->
  member ex_B ex_p (Node "C2" [("x", Leaf a); ("y", Leaf b)]).
Proof.
  intros Wa Wb Fa Fb. split; [|split; [|apply ex_kind]].
  - change (Node "C2" [("x", Leaf a); ("y", Leaf b)]) with (flat "C2" ["x"; "y"] [a; b]). flat_ok; assumption.
  - intros c o (q & Hq & _). apply leaf_In in Hq. destruct Hq as [<- |[<- |[]]]; assumption.
Qed.

Ltac good := first [exact Logic.I | repeat constructor; simpl; tauto].

Lemma ex_u_member : member ex_B ex_p ex_u.
Proof. apply ex_member; [good|good|fits|fits]. Qed.
Lemma ex_v_member : member ex_B ex_p ex_v.
Proof. apply ex_member; [good|good|fits|fits]. Qed.

Lemma ex_m_ok : matrix_ok ex_m.
Proof.
  change ex_m with (flat "C2" ["x"; "y"] [flat "C2" ["x"; "y"] (leaves (Node "C2" [("x", arr "t" [1; 2]%Z); ("y", num 3)]));
      flat "C2" ["x"; "y"] (leaves (Node "C2" [("x", num 0); ("y", num 2)]))]).
  flat_ok; flat_ok; good.
Qed.

Lemma ex_m_between : between ex_B ex_p ex_p ex_m.
Proof.
  split; [exact ex_m_ok|]. split; [|split; [|split]].
  - intros r c o (pp & row & Hp & _ & q & Hq & _). apply leaf_In in Hp, Hq.
    destruct Hp as [<- |[<- |[]]], Hq as [<- |[<- |[]]]; fits.
  - intros [|c [|d q]]; [reflexivity| |]; cbn; destruct (String.eqb c "x"); try reflexivity; destruct (String.eqb c "y"); reflexivity.
  - intros row [<- |[<- |[]]] c; simpl; tauto.
  - intros row [<- |[<- |[]]]; reflexivity.
Qed.

Lemma ex_m_regular : regular qK ex_B ex_p ex_p ex_m.
Proof.
  split; [intros row [<- |[<- |[]]]; apply ex_kind|]. split; [reflexivity|]. split; [simpl; lia|].
  intros e M I R. change (names ex_p) with ["x"; "y"].
  rewrite (determinant_ext qK ["x"; "y"] ["x"; "y"] M (fun r c => entry qK ex_m r c e)).
  - assert (T : e "t" = 0 \/ e "t" = 1) by (specialize (I "t" 2 (or_introl eq_refl)); lia).
    assert (X : forall n, n = 0 \/ n = 1 -> this (determinant qK ["x"; "y"] ["x"; "y"] (fun r c => entry qK ex_m r c (fun _ => n))) <> this (zero qK)).
    { intros n [-> | ->]; vm_compute; discriminate. }
    assert (Y : determinant qK ["x"; "y"] ["x"; "y"] (fun r c => entry qK ex_m r c e) =
                determinant qK ["x"; "y"] ["x"; "y"] (fun r c => entry qK ex_m r c (fun _ => e "t"))) by reflexivity.
    rewrite Y. intros Z. apply (X _ T). now rewrite Z.
  - intros r c Hr Hc. symmetry. apply (reads_entry qK ex_m e M ["x"; "y"]); auto; [exact ex_m_ok|].
    intros row [<- |[<- |[]]] k; simpl; tauto.
Qed.

(** a nested list, extrinsic, of a translation, a linear and an affine transformation *)
Example C28_means_example : exists f, means qK ex_B (regular qK ex_B) ex_p ex_p ex_a f.
Proof.
  assert (R : forall e, inside e ex_B -> matrix_reads ex_m e (fun r c => entry qK ex_m r c e)) by (intros; apply entry_reads; exact ex_m_ok).
  assert (Tu : forall e, inside e ex_B -> vector_reads ex_u e (fun c => comp qK ex_u c e)) by (intros; apply comp_reads; apply ex_u_member).
  assert (Tv : forall e, inside e ex_B -> vector_reads ex_v e (fun c => comp qK ex_v c e)) by (intros; apply comp_reads; apply ex_v_member).
  eexists. apply means_sequence. cbn [rev app]. eapply means_cons; [apply means_sequence; cbn [rev app]; eapply means_cons; [|eapply means_cons; [|apply means_nil]]|].
  - apply (means_affine qK ex_B _ ex_p ex_p ex_m ex_v (fun e r c => entry qK ex_m r c e) (fun e c => comp qK ex_v c e)); auto using ex_space, ex_m_between, ex_m_regular, ex_v_member.
  - apply means_identity. exact ex_space.
  - exact ex_space.
  - eapply means_cons; [|eapply means_cons; [|apply means_nil; exact ex_space]].
    + apply (means_linear qK ex_B _ ex_p ex_p ex_m (fun e r c => entry qK ex_m r c e)); auto using ex_space, ex_m_between, ex_m_regular.
    + apply (means_translation qK ex_B _ ex_p ex_u (fun e c => comp qK ex_u c e)); auto using ex_space, ex_u_member.
Qed.

Example C28_example :
  showv (apply qK ex_a ex_v) =
    Some [("x", ([("t", 2); ("s", 3)], [96; 94; 104; 121; 115; 145]%Q)); ("y", ([("s", 3)], [43; 44; 45]%Q))] /\
  showv (c <- tmatmul qK ex_a ex_b ;; apply qK c ex_v) = showv (y <- apply qK ex_b ex_v ;; apply qK ex_a y) /\
  showv (x <- apply qK ex_a ex_v ;; a' <- invert qK ex_a ;; apply qK a' x) =
    Some [("x", ([("t", 2); ("s", 3)], [1; 0; 5; 1; 0; 5]%Q)); ("y", ([("t", 2); ("s", 3)], [7; 7; 7; 7; 7; 7]%Q))] /\
  showv (apply qK ex_a ex_v) <> showv (apply qK (Sequence [Translation ex_u; Linear ex_m; Sequence [Identity; Affine ex_m ex_v] false] true) ex_v).
Proof. repeat split; vm_compute; first [reflexivity|discriminate]. Qed.

(** Finding: the linear part has two rows, columns with the right names and a
    determinant different from zero, but its second row lists the columns in
    another order; the inverse does not undo the transformation (see C27). *)
Definition ex_bad : matrix Qc :=
  Node "C2" [("x", Leaf (Node "C2" [("x", num 1); ("y", num 2)]));
             ("y", Leaf (Node "C2" [("y", num 1); ("x", num 0)]))]%Z.
Definition ex_w : vec Qc := Node "C2" [("x", num 1); ("y", num 0)]%Z.

Lemma ex_bad_ok : matrix_ok ex_bad.
Proof.
  change ex_bad with (flat "C2" ["x"; "y"] [flat "C2" ["x"; "y"] (leaves (Node "C2" [("x", num 1); ("y", num 2)]));
      flat "C2" ["y"; "x"] (leaves (Node "C2" [("y", num 1); ("x", num 0)]))]).
  flat_ok; flat_ok; good.
Qed.

Theorem C28_inverse_refuted :
  exists (p : tree unit) (m : matrix Qc) (f : action) (v x y : vec Qc) (a' : trans Qc),
  means qK [] any p p (Linear m) f /\ member [] p v /\ length (names p) = 2 /\
  (forall M, matrix_reads m (fun _ => 0) M -> determinant qK (names p) (names p) M <> zero qK) /\
  invert qK (Linear m) = Ok a' /\ apply qK (Linear m) v = Ok x /\ apply qK a' x = Ok y /\ ~ agree [] y v.
Proof.
  assert (Bt : between [] ex_p ex_p ex_bad).
  { split; [exact ex_bad_ok|]. split; [|split; [|split]].
    - intros r c o (pp & row & Hp & _ & q & Hq & _). apply leaf_In in Hp, Hq.
      destruct Hp as [<- |[<- |[]]], Hq as [<- |[<- |[]]]; fits.
    - intros [|c [|d q]]; [reflexivity| |]; cbn; destruct (String.eqb c "x"); try reflexivity; destruct (String.eqb c "y"); reflexivity.
    - intros row [<- |[<- |[]]] c; simpl; tauto.
    - intros row [<- |[<- |[]]]; reflexivity. }
  destruct (invert qK (Linear ex_bad)) as [a'|] eqn:Ea; [|vm_compute in Ea; discriminate].
  destruct (apply qK (Linear ex_bad) ex_w) as [x|] eqn:Ex; [|vm_compute in Ex; discriminate].
  destruct (apply qK a' x) as [y|] eqn:Ey; [|exfalso; revert Ea Ex Ey; vm_compute invert; intros Ea; injection Ea as <-;
    vm_compute; intros Ex; injection Ex as <-; vm_compute; discriminate].
  eexists ex_p, ex_bad, _, ex_w, x, y, a'. split; [|split; [|split; [reflexivity|split; [|split; [exact Ea|split; [exact Ex|split; [exact Ey|]]]]]]].
  - apply (means_linear qK [] any ex_p ex_p ex_bad (fun e r c => entry qK ex_bad r c e)); auto using ex_space; [exact Logic.I|].
    intros e _. apply entry_reads. exact ex_bad_ok.
  - split; [|split; [|apply ex_kind]].
    + change ex_w with (flat "C2" ["x"; "y"] (leaves ex_w)). flat_ok; good.
    + intros c o (q & Hq & _). apply leaf_In in Hq. destruct Hq as [<- |[<- |[]]]; fits.
  - intros M R. change (names ex_p) with ["x"; "y"].
    rewrite (determinant_ext qK ["x"; "y"] ["x"; "y"] M (fun r c => entry qK ex_bad r c (fun _ => 0))).
    + vm_compute. discriminate.
    + intros r c Hr Hc. symmetry. apply (reads_entry qK ex_bad (fun _ => 0) M ["x"; "y"]); auto; [exact ex_bad_ok|].
      intros row [<- |[<- |[]]] k; simpl; tauto.
  - intros [_ H].
    assert (C : exists o, part y "x" o /\ this (op_at o (fun _ => 0)) <> (1 # 1)%Q).
    { revert Ea Ex Ey. vm_compute invert. intros Ea. injection Ea as <-. vm_compute apply. intros Ex. injection Ex as <-. vm_compute apply. intros Ey. injection Ey as <-.
      eexists. split; [exists ["x"]; split; [reflexivity|reflexivity]|]. vm_compute. discriminate. }
    destruct C as (o & Co & V). apply V.
    rewrite (H (fun _ => 0) "x" o (OpNum (Q2Qc 1))); [reflexivity| |exact Co|].
    + intros ax n [].
    + exists ["x"]. split; reflexivity.
Qed.
Print Assumptions C28_inverse_refuted.
