(** C87: the functions of vectors along named axes act on every component as if it had all
    the axes of the vector. *)
From Coq Require Import String List Arith ZArith Bool Lia.
From Verif Require Import Base Numpy Shapes Scalar Reorder Elementwise Reduce Along Vector VectorAxes
  Spec SpecNumeric SpecVector SpecMatrix SpecVectorAxes AlignFacts VectorAxesFacts VectorAlongFacts.
Import ListNotations.
Open Scope nat_scope.
Open Scope list_scope.

(** [np.transpose]: every component gets exactly the given axes, in their order. *)
Theorem C87_transpose :
  forall (A : Type) (v : vec A) (axes : list string) (sh : shape), vec_wf v -> filled v -> vec_shape v = Ok sh ->
  (NoDup axes /\ incl (dkeys sh) axes -> exists r, vec_transpose v (Some axes) = Ok r /\ each v r (fun _ o a =>
     s_axes a = axes /\
     (forall ax n, In (ax, n) (sshape a) <-> In (ax, n) sh \/ (~ In ax (dkeys sh) /\ In ax axes /\ n = 1)) /\
     forall e, inside e (sshape a) -> at_ a e = op_at o e)) /\
  (~ (NoDup axes /\ incl (dkeys sh) axes) -> vec_transpose v (Some axes) = Err ValueError).
Proof. exact @vec_transpose_full. Qed.
Print Assumptions C87_transpose.

(** Without axes the order is reversed. *)
Theorem C87_transpose_reverse :
  forall (A : Type) (v : vec A) (sh : shape), vec_wf v -> filled v -> vec_shape v = Ok sh ->
  exists r, vec_transpose v None = Ok r /\ each v r (fun _ o a =>
     s_axes a = rev (dkeys sh) /\ same_shape (sshape a) sh /\ forall e, inside e sh -> at_ a e = op_at o e).
Proof. exact @vec_transpose_none_spec. Qed.
Print Assumptions C87_transpose_reverse.

(** [np.reshape] lists the elements of every broadcast component in the new shape. *)
Theorem C87_reshape :
  forall (A : Type) (v : vec A) (new sh : shape), vec_wf v -> filled v -> vec_shape v = Ok sh -> NoDup (dkeys new) ->
  (total_size new (dkeys new) = total_size sh (dkeys sh) ->
   exists r, vec_reshape v new = Ok r /\ each v r (fun _ o a =>
     sshape a = new /\ forall e, map (at_ a) (fibre new (dkeys new) e) = map (op_at o) (fibre sh (dkeys sh) e))) /\
  (total_size new (dkeys new) <> total_size sh (dkeys sh) -> vec_reshape v new = Err ValueError).
Proof. exact @vec_reshape_spec. Qed.
Print Assumptions C87_reshape.

(** [np.diff] *)
Theorem C87_diff :
  forall (A : Type) (sub : A -> A -> A) (n : nat) (v : vec A) (axis : string) (prepend append : option (operand A)) (sh : shape),
  vec_wf v -> filled v -> vec_shape v = Ok sh ->
  (forall o, prepend = Some o -> op_wf o) -> (forall o, append = Some o -> op_wf o) ->
  let extra (o : option (operand A)) := match o with Some b => fun e => [op_at b e] | None => fun _ => [] end in
  let ok := In axis (dkeys sh) /\ (forall o, prepend = Some o \/ append = Some o -> op_fits o (resized sh axis 1)) in
  (ok -> exists r, vec_diff sub n v axis prepend append = Ok r /\ each v r (fun _ o a =>
     s_axes a = dkeys sh /\
     (forall ax, In ax (dkeys sh) -> ax <> axis -> size_of (sshape a) ax = size_of sh ax) /\
     forall e, (forall x m, In (x, m) sh -> x <> axis -> e x < m) -> line a axis e =
       match n with
       | 0 => run o axis (size_of sh axis) e
       | _ => Nat.iter n (Spec.delta sub) (extra prepend e ++ run o axis (size_of sh axis) e ++ extra append e)
       end)) /\
  (~ ok -> vec_diff sub n v axis prepend append = Err ValueError).
Proof. exact @vec_diff_spec. Qed.
Print Assumptions C87_diff.

(** [np.repeat] *)
Theorem C87_repeat :
  forall (A : Type) (v : vec A) (repeats : operand nat) (axis : string) (sh : shape),
  vec_wf v -> filled v -> vec_shape v = Ok sh -> op_wf repeats ->
  let n := size_of sh axis in
  let ok := In axis (dkeys sh) /\
    (op_shape repeats = [] \/ exists ax m, op_shape repeats = [(ax, m)] /\ (m = 1 \/ m = n)) in
  (ok -> exists r, vec_repeat v repeats axis = Ok r /\ each v r (fun _ o a =>
     s_axes a = dkeys sh /\
     (forall ax, In ax (dkeys sh) -> ax <> axis -> size_of (sshape a) ax = size_of sh ax) /\
     forall e, (forall x m, In (x, m) sh -> x <> axis -> e x < m) ->
       line a axis e = Spec.expand (map (fun j => op_at repeats (fun _ => j)) (seq 0 n)) (run o axis n e))) /\
  (~ ok -> vec_repeat v repeats axis = Err ValueError).
Proof. exact @vec_repeat_spec. Qed.
Print Assumptions C87_repeat.

(** The cumulative functions: the components only get the axis.  For an axis that is absent
    the exception is KeyError, where scalars raise ValueError. *)
Theorem C87_cumulative :
  forall (A B : Type) (scan : list A -> B) (initial : bool) (v : vec A) (axis : option (list string)) (sh : shape),
  vec_wf v -> filled v -> is_node v -> vec_shape v = Ok sh ->
  let S := match axis with Some l => l | None => dkeys sh end in
  (forall ax n, S = [ax] -> In (ax, n) sh -> exists r, vec_cumulative scan initial v axis = Ok r /\ each v r (fun _ o a =>
     (forall x, dget (sshape a) x = with_axis (op_shape o) ax (n + if initial then 1 else 0) x) /\
     forall e, inside e (sshape a) -> at_ a e = scan (firstn (e ax + if initial then 0 else 1) (run o ax n e)))) /\
  (forall ax, S = [ax] -> ~ In ax (dkeys sh) -> vec_cumulative scan initial v axis = Err KeyError) /\
  (length S <> 1 -> vec_cumulative scan initial v axis = Err ValueError).
Proof. exact @vec_cumulative_spec. Qed.
Print Assumptions C87_cumulative.

(** [np.take_along_axis]: the indices are a scalar, used for all components, or a vector. *)
Theorem C87_take_along_axis :
  forall (A : Type) (v : vec A) (w : vec Z) (axis : string) (sh : shape),
  vec_wf v -> filled v -> vec_wf w -> suits v w -> vec_shape v = Ok sh ->
  (forall n, In (axis, n) sh ->
   (forall p o i, leaf_at v p = Some o -> reaches w p = Some i ->
      ~ conflict [without (op_shape o) [axis]; without (op_shape i) [axis]] /\
      forall e, inside e (op_shape i) -> in_range n (op_at i e)) ->
   exists r, vec_take_along_axis v w axis = Ok r /\ each v r (fun p o a => exists i, reaches w p = Some i /\
     (forall ax k, In (ax, k) (sshape a) <->
        if String.eqb ax axis then k = size_of (op_shape i) axis
        else (In ax (dkeys (op_shape o)) \/ In ax (dkeys (op_shape i))) /\ common_size (sizes_of [op_shape o; op_shape i] ax) k) /\
     forall e, inside e (sshape a) -> exists j, index_is n (op_at i e) j /\ at_ a e = op_at o (set_env e axis j))) /\
  (is_node v -> ~ In axis (dkeys sh) -> vec_take_along_axis v w axis = Err ValueError).
Proof. exact @vec_take_spec. Qed.
Print Assumptions C87_take_along_axis.

(** [np.moveaxis] renames the axes of every component, when no two axes of the vector get
    the same name. *)
Theorem C87_moveaxis_partial :
  forall (A : Type) (v : vec A) (source destination : list string) (sh : shape),
  vec_wf v -> vec_shape v = Ok sh ->
  (NoDup source -> length source = length destination -> incl source (dkeys sh) ->
   ForallOrdPairs (fun p q => snd p <> fst q) (combine source destination) ->
   let rho := rename (combine source destination) in NoDup (map rho (dkeys sh)) ->
   exists r sh', vec_moveaxis v source destination = Ok r /\ vec_wf r /\ same_kind v r /\
     (forall p o, leaf_at v p = Some o -> exists o', leaf_at r p = Some o' /\ renamed_op rho o o') /\
     vec_shape r = Ok sh' /\ same_shape sh' (map (fun kv => (rho (fst kv), snd kv)) sh)) /\
  (~ incl source (dkeys sh) -> vec_moveaxis v source destination = Err ValueError).
Proof. exact @vec_moveaxis_spec. Qed.
Print Assumptions C87_moveaxis_partial.

Open Scope string_scope.
Definition ex_row (ax : string) (l : list Z) : operand Z := OpArr (mkS (of_list 0%Z [length l] l) [ax]).
Definition ex_u : vec Z := Node "Cartesian2dVectorArray" [("x", Leaf (ex_row "u" [1; 2; 4]%Z)); ("y", Leaf (ex_row "w" [7; 5]%Z))].
Definition ex_v : vec Z := Node "SpectralPositionalVectorArray" [("wavelength", Leaf (OpNum 9%Z)); ("position", ex_u)].
Definition ex_one : vec Z := Node "Cartesian2dVectorArray" [("x", Leaf (ex_row "u" [1; 2; 4]%Z)); ("y", Leaf (OpNum 7%Z))].
Definition show (r : res (vec Z)) : res (list (shape * list Z)) :=
  v <- r ;; Ok (map (fun o => (op_shape o, ravel (s_nd (normalize o)))) (leaves v)).

Lemma ex_row_wf ax l : op_wf (ex_row ax l).
Proof. split; [constructor; [intros []|constructor]|reflexivity]. Qed.
Lemma ex_u_wf : vec_wf ex_u.
Proof.
  constructor; [repeat constructor; cbn; intuition discriminate|].
  intros c x [E|[E|[]]]; injection E as <- <-; constructor; apply ex_row_wf.
Qed.
Lemma ex_v_wf : vec_wf ex_v.
Proof.
  constructor; [repeat constructor; cbn; intuition discriminate|].
  intros c x [E|[E|[]]]; injection E as <- <-; [constructor; exact Logic.I|exact ex_u_wf].
Qed.
Lemma ex_one_wf : vec_wf ex_one.
Proof.
  constructor; [repeat constructor; cbn; intuition discriminate|].
  intros c x [E|[E|[]]]; injection E as <- <-; constructor; [apply ex_row_wf|exact Logic.I].
Qed.

Example C87_example_transpose : show (vec_transpose ex_v (Some ["w"; "u"])) =
  Ok [([("w", 2); ("u", 3)], [9; 9; 9; 9; 9; 9]%Z); ([("w", 2); ("u", 3)], [1; 2; 4; 1; 2; 4]%Z);
      ([("w", 2); ("u", 3)], [7; 7; 7; 5; 5; 5]%Z)].
Proof. vm_compute. reflexivity. Qed.
Example C87_example_reshape : show (vec_reshape ex_u [("t", 6)]) =
  Ok [([("t", 6)], [1; 1; 2; 2; 4; 4]%Z); ([("t", 6)], [7; 5; 7; 5; 7; 5]%Z)].
Proof. vm_compute. reflexivity. Qed.
Example C87_example_diff : show (vec_diff Z.sub 1 ex_u "u" (Some (OpNum 0%Z)) None) =
  Ok [([("u", 3); ("w", 2)], [1; 1; 1; 1; 2; 2]%Z); ([("u", 3); ("w", 2)], [7; 5; 0; 0; 0; 0]%Z)].
Proof. vm_compute. reflexivity. Qed.
Example C87_example_repeat : show (vec_repeat ex_u (OpNum 2) "w") =
  Ok [([("u", 3); ("w", 4)], [1; 1; 1; 1; 2; 2; 2; 2; 4; 4; 4; 4]%Z); ([("u", 3); ("w", 4)], [7; 7; 5; 5; 7; 7; 5; 5; 7; 7; 5; 5]%Z)].
Proof. vm_compute. reflexivity. Qed.
Example C87_example_cumulative :
  show (vec_cumulative (fold_right Z.add 0%Z) true ex_v (Some ["u"])) =
    Ok [([("u", 4)], [0; 9; 18; 27]%Z); ([("u", 4)], [0; 1; 3; 7]%Z); ([("w", 2); ("u", 4)], [0; 7; 14; 21; 0; 5; 10; 15]%Z)] /\
  show (vec_cumulative (fold_right Z.add 0%Z) false ex_one None) = Ok [([("u", 3)], [1; 3; 7]%Z); ([("u", 3)], [7; 14; 21]%Z)] /\
  show (vec_cumulative (fold_right Z.add 0%Z) false ex_v (Some ["q"])) = Err KeyError /\
  show (vec_cumulative (fold_right Z.add 0%Z) false ex_v None) = Err ValueError.
Proof. vm_compute. auto. Qed.
Example C87_example_take :
  show (vec_take_along_axis ex_v (Leaf (ex_row "u" [-1; 0]%Z)) "u") =
    Ok [([("u", 2)], [9; 9]%Z); ([("u", 2)], [4; 1]%Z); ([("u", 2); ("w", 2)], [7; 5; 7; 5]%Z)].
Proof. vm_compute. reflexivity. Qed.
Example C87_example_moveaxis :
  show (vec_moveaxis ex_v ["u"; "w"] ["t"; "u"]) = Ok [([], [9]%Z); ([("t", 3)], [1; 2; 4]%Z); ([("u", 2)], [7; 5]%Z)].
Proof. vm_compute. reflexivity. Qed.

Lemma ex_v_filled : filled ex_v.
Proof.
  intros [|c [|d p]] ty ns H; cbn in H.
  - injection H as _ <-. discriminate.
  - destruct (String.eqb_spec c "wavelength"); [discriminate|]. destruct (String.eqb_spec c "position"); [|discriminate]. injection H as _ <-. discriminate.
  - destruct (String.eqb_spec c "wavelength"); [discriminate|]. destruct (String.eqb_spec c "position"); [|discriminate]. cbn in H.
    destruct (String.eqb_spec d "x"); [destruct p; discriminate|]. destruct (String.eqb_spec d "y"); [destruct p; discriminate|discriminate].
Qed.

Example C87_applies : exists r a, vec_cumulative (fold_right Z.add 0%Z) false ex_v (Some ["u"]) = Ok r /\
  leaf_at r ["position"; "x"] = Some (OpArr a) /\ at_ a (fun _ => 2) = 7%Z.
Proof.
  destruct (C87_cumulative Z Z (fold_right Z.add 0%Z) false ex_v (Some ["u"]) [("u", 3); ("w", 2)] ex_v_wf ex_v_filled) as (H & _); [do 2 eexists; reflexivity|reflexivity|].
  destruct (H "u" 3 eq_refl (or_introl eq_refl)) as (r & E & K & L). destruct (L ["position"; "x"] (ex_row "u" [1; 2; 4]%Z) eq_refl) as (a & La & Wa & Sa & Va).
  exists r, a. split; [exact E|]. split; [exact La|]. rewrite Va; [reflexivity|].
  intros ax n Hn. apply (In_dget_iff _ _ _ (AlignFacts.wf_nodup a Wa)) in Hn. rewrite Sa in Hn. unfold with_axis in Hn.
  destruct (String.eqb_spec ax "u"); [injection Hn as <-; lia|]. cbn in Hn. destruct (String.eqb_spec ax "u"); [contradiction|discriminate].
Qed.

Example C87_applies_moveaxis : exists r sh', vec_moveaxis ex_v ["u"; "w"] ["t"; "u"] = Ok r /\ vec_shape r = Ok sh' /\
  same_shape sh' [("t", 3); ("u", 2)].
Proof.
  destruct (C87_moveaxis_partial Z ex_v ["u"; "w"] ["t"; "u"] [("u", 3); ("w", 2)] ex_v_wf eq_refl) as (H & _).
  destruct H as (r & sh' & E & _ & _ & _ & S & Q); try (repeat constructor; cbn; intuition discriminate).
  - intros x [<- |[<- |[]]]; cbn; auto.
  - exists r, sh'. auto.
Qed.

(** Refuted in general: renaming an axis of one component to the name of an axis of another
    component silently merges the two axes; for scalars this is a ValueError.  The vector
    has nine elements before, and three after. *)
Theorem C87_moveaxis_refuted :
  exists (v r : vec Z) (sh : shape), vec_wf v /\ filled v /\ vec_shape v = Ok sh /\
    In "u" (dkeys sh) /\ In "w" (dkeys sh) /\
    vec_moveaxis v ["u"] ["w"] = Ok r /\ vec_shape r = Ok [("w", 3)] /\
    forall (a : sarr Z) b, vec_broadcast_to v sh = Ok (Node "Cartesian2dVectorArray" [("x", Leaf (OpArr a)); ("y", b)]) ->
      na_moveaxis a ["u"] ["w"] = Err ValueError.
Proof.
  exists (Node "Cartesian2dVectorArray" [("x", Leaf (ex_row "u" [1; 2; 4]%Z)); ("y", Leaf (ex_row "w" [7; 5; 6]%Z))]).
  eexists. exists [("u", 3); ("w", 3)]. split; [|split; [|split; [|split; [|split; [|split; [|split]]]]]].
  - constructor; [repeat constructor; cbn; intuition discriminate|].
    intros c x [E|[E|[]]]; injection E as <- <-; constructor; apply ex_row_wf.
  - intros [|c p] ty ns H; cbn in H; [injection H as _ <-; discriminate|].
    destruct (String.eqb_spec c "x"); [destruct p; discriminate|]. destruct (String.eqb_spec c "y"); [destruct p; discriminate|discriminate].
  - reflexivity.
  - cbn. auto.
  - cbn. auto.
  - reflexivity.
  - reflexivity.
  - intros a b H. vm_compute in H. injection H as <- _. vm_compute. reflexivity.
Qed.
Print Assumptions C87_moveaxis_refuted.
