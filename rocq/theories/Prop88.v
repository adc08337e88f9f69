(** C88: sorting a vector sorts every component as if it had all the sorted axes, and the
    dictionaries of indices address the same elements. *)
From Coq Require Import String List Arith ZArith Bool Lia.
From Verif Require Import Base Numpy Shapes Scalar Reorder Elementwise Reduce Along Sorting Vector VectorSort
  Spec SpecVector SpecMatrix AlignFacts SortingFacts VectorSortFacts.
Import ListNotations.
Open Scope nat_scope.
Open Scope list_scope.

(** [np.sort]: a component with at least one of the axes is repeated along the others; its
    elements along the axes [l] of the vector, in row-major order, are replaced by the sorted list.
    A component without any of the axes stays as it is. *)
Theorem C88_sort_partial :
  forall (A : Type) (sort1 : list A -> list A) (ty : string) (cs : list (string * vec A)) (l : list string) (sh : shape),
  (forall x, length (sort1 x) = length x) -> vec_wf (Node ty cs) -> filled (Node ty cs) -> vec_shape (Node ty cs) = Ok sh ->
  l <> [] -> NoDup l -> incl l (dkeys sh) -> (forall ax n, In (ax, n) sh -> ~ In ax l -> n <> 0 /\ ax <> flat_name l) ->
  exists s, vec_sort sort1 (Node ty cs) (Some l) = Ok s /\ same_kind (Node ty cs) s /\
    forall c x shx p o, dget cs c = Some x -> vec_shape x = Ok shx -> leaf_at x p = Some o ->
      ((forall ax, In ax l -> ~ In ax (dkeys shx)) -> leaf_at s (c :: p) = Some o) /\
      (forall ax, In ax l -> In ax (dkeys shx) -> exists a, leaf_at s (c :: p) = Some (OpArr a) /\ wf a /\
         (forall ax n, In (ax, n) (sshape a) <-> (~ In ax l /\ In (ax, n) shx) \/ (ax = flat_name l /\ n = total_size sh l)) /\
         forall e, inside_but e shx l -> line a (flat_name l) e = sort1 (map (op_at o) (fibre sh l e))).
Proof. exact @vec_sort_spec. Qed.
Print Assumptions C88_sort_partial.

(** [v[np.argsort(v)]] is [np.sort(v)]; every scalar must have the full size of the
    vector along the sorted axes, and of its component along the others. *)
Theorem C88_argsort_partial :
  forall (A : Type) (sort1 : list A -> list A) (argsort1 : list A -> list nat) (ty : string) (cs : list (string * vec A)) (l : list string) (sh : shape),
  (forall x, length (argsort1 x) = length x) -> (forall x i, In i (argsort1 x) -> i < length x) ->
  (forall x, map Some (sort1 x) = map (nth_error x) (argsort1 x)) ->
  vec_wf (Node ty cs) -> filled (Node ty cs) -> vec_shape (Node ty cs) = Ok sh ->
  l <> [] -> NoDup l -> incl l (dkeys sh) -> (forall ax n, In (ax, n) sh -> ~ In ax l -> n <> 0 /\ ax <> flat_name l) ->
  (forall c x shx p o ax n, dget cs c = Some x -> vec_shape x = Ok shx -> leaf_at x p = Some o -> In (ax, n) (op_shape o) ->
     if in_dec string_dec ax l then In (ax, n) sh else In (ax, n) shx) ->
  exists s it r, vec_sort sort1 (Node ty cs) (Some l) = Ok s /\ vec_argsort argsort1 (Node ty cs) (Some l) = Ok it /\
    dkeys it = dkeys sh /\ vec_getitem (Node ty cs) it = Ok r /\ same_kind s r /\
    forall p so, leaf_at s p = Some so -> exists ro, leaf_at r p = Some ro /\ op_wf ro /\
      forall e, inside e (op_shape so) -> op_at ro e = op_at so e.
Proof. exact @vec_argsort_spec. Qed.
Print Assumptions C88_argsort_partial.

(** No axis at all, or an axis that the vector does not have, is refused. *)
Theorem C88_refused :
  forall (A : Type) (sort1 : list A -> list A) (argsort1 : list A -> list nat) (ty : string) (cs : list (string * vec A)) (l : list string) (sh : shape),
  vec_shape (Node ty cs) = Ok sh -> l = [] \/ ~ incl l (dkeys sh) ->
  vec_sort sort1 (Node ty cs) (Some l) = Err ValueError /\ vec_argsort argsort1 (Node ty cs) (Some l) = Err ValueError.
Proof. exact @vec_sort_refused. Qed.
Print Assumptions C88_refused.

(** Without [axis] all the axes of the vector are sorted together. *)
Theorem C88_all :
  forall (A : Type) (sort1 : list A -> list A) (argsort1 : list A -> list nat) (ty : string) (cs : list (string * vec A)) (sh : shape),
  vec_shape (Node ty cs) = Ok sh ->
  (sh = [] -> vec_sort sort1 (Node ty cs) None = Ok (Node ty cs) /\ vec_argsort argsort1 (Node ty cs) None = Ok []) /\
  (sh <> [] -> vec_sort sort1 (Node ty cs) None = vec_sort sort1 (Node ty cs) (Some (dkeys sh)) /\
     vec_argsort argsort1 (Node ty cs) None = vec_argsort argsort1 (Node ty cs) (Some (dkeys sh))).
Proof. exact @vec_sort_none. Qed.
Print Assumptions C88_all.

(** [np.unravel_index]: one vector for each axis of the indices; the components for the axes
    of [sh] together have the row-major positions given by the component.  The axes of [sh] must
    be among the axes of the indices. *)
Theorem C88_unravel_index_partial :
  forall (ty : string) (cs : dict (operand Z)) (s sh : shape),
  NoDup (dkeys cs) -> NoDup (dkeys sh) -> vec_shape (Node ty (as_leaves cs)) = Ok s -> incl (dkeys sh) (dkeys s) ->
  (forall c o, dget cs c = Some o -> exists a, o = OpArr a /\ wf a /\ (sh = [] -> s_axes a = []) /\
     forall e, inside e (sshape a) -> (0 <= at_ a e < Z.of_nat (total_size sh (dkeys sh)))%Z) ->
  exists d, vec_unravel_index ty cs sh = Ok d /\ dkeys d = dkeys s /\
    forall c a, dget cs c = Some (OpArr a) ->
      (forall ax t, In ax (dkeys sh) -> dget d ax = Some t -> exists v, leaf_at t [c] = Some (OpArr v) /\ wf v /\ sshape v = sshape a) /\
      forall e, inside e (sshape a) -> exists idx : list nat,
        Forall2 (fun kv i => i < snd kv /\ exists t v, dget d (fst kv) = Some t /\ leaf_at t [c] = Some (OpArr v) /\ at_ v e = Z.of_nat i) sh idx /\
        Z.of_nat (row_major (dvals sh) idx) = at_ a e.
Proof. exact vec_unravel_spec. Qed.
Print Assumptions C88_unravel_index_partial.

(** Valid indices are refused with KeyError whenever [sh] has an axis that they do not have. *)
Theorem C88_unravel_index_missing :
  forall (ty : string) (cs : dict (operand Z)) (s sh : shape) (ax : string),
  NoDup (dkeys sh) -> vec_shape (Node ty (as_leaves cs)) = Ok s -> In ax (dkeys sh) -> ~ In ax (dkeys s) -> cs <> [] ->
  (forall c o, In (c, o) cs -> exists a, o = OpArr a /\ wf a /\ (sh = [] -> s_axes a = []) /\
     forall e, inside e (sshape a) -> (0 <= at_ a e < Z.of_nat (total_size sh (dkeys sh)))%Z) ->
  vec_unravel_index ty cs sh = Err KeyError.
Proof. exact vec_unravel_missing. Qed.
Print Assumptions C88_unravel_index_missing.

Open Scope string_scope.

Definition ex_x : sarr nat := mkS (of_list 0 [3] [5; 2; 4]) ["t"].
Definition ex_y : sarr nat := mkS (of_list 0 [2; 3] [1; 0; 7; 9; 8; 3]) ["u"; "t"].
Definition ex_w : sarr nat := mkS (of_list 0 [2] [6; 1]) ["u"].
Definition ex_cs : list (string * vec nat) := [("x", Leaf (OpArr ex_x)); ("y", Leaf (OpArr ex_y)); ("z", Leaf (OpNum 4)); ("w", Leaf (OpArr ex_w))].
Definition ex_v : vec nat := Node "V" ex_cs.

Ltac nodup := repeat constructor; simpl; intuition discriminate.

Example C88_example_hypotheses :
  vec_wf ex_v /\ filled ex_v /\ vec_shape ex_v = Ok [("t", 3); ("u", 2)] /\
  (forall c x shx p o ax n, dget ex_cs c = Some x -> vec_shape x = Ok shx -> leaf_at x p = Some o -> In (ax, n) (op_shape o) ->
     if in_dec string_dec ax ["t"] then In (ax, n) [("t", 3); ("u", 2)] else In (ax, n) shx).
Proof.
  split.
  { constructor; [nodup|]. intros c x H. simpl in H.
    destruct H as [H|[H|[H|[H|[]]]]]; injection H as <- <-; constructor; try exact Logic.I; split; try reflexivity; nodup. }
  split.
  { intros [|c p] ty names; cbn [kind].
    - intros [= <- <-]. discriminate.
    - unfold ex_v, ex_cs. cbn [dget]. repeat (match goal with |- context [String.eqb ?a ?b] => destruct (String.eqb a b) end; [destruct p; discriminate|]). discriminate. }
  split; [vm_compute; reflexivity|].
  intros c x shx p o ax n. unfold ex_cs. cbn [dget].
  destruct (String.eqb c "x"); [|destruct (String.eqb c "y"); [|destruct (String.eqb c "z"); [|destruct (String.eqb c "w"); [|discriminate]]]];
    intros [= <-]; cbn [vec_shape]; intros [= <-]; (destruct p; cbn [leaf_at]; [|discriminate]); intros [= <-]; cbn [op_shape].
  - intros [[= <- <-]|[]]. destruct (in_dec string_dec "t" ["t"]) as [|N]; [simpl; auto|exfalso; apply N; now left].
  - intros [[= <- <-]|[[= <- <-]|[]]].
    + destruct (in_dec string_dec "u" ["t"]) as [[Q|[]]|]; [discriminate|simpl; auto].
    + destruct (in_dec string_dec "t" ["t"]) as [|N]; [simpl; auto|exfalso; apply N; now left].
  - intros [].
  - intros [[= <- <-]|[]]. destruct (in_dec string_dec "u" ["t"]) as [[Q|[]]|]; [discriminate|simpl; auto].
Qed.

Definition show (t : vec nat) : list (string * (list string * list nat)) :=
  match t with
  | Node _ cs => map (fun kv => (fst kv, match snd kv with
                                        | Leaf (OpArr a) => (s_axes a, ravel (s_nd a))
                                        | Leaf (OpNum n) => ([], [n])
                                        | _ => ([], [])
                                        end)) cs
  | _ => []
  end.

Example C88_example_values :
  (exists s, vec_sort sort_nat ex_v (Some ["t"]) = Ok s /\
     show s = [("x", (["t"], [2; 4; 5])); ("y", (["u"; "t"], [0; 1; 7; 3; 8; 9])); ("z", ([], [4])); ("w", (["u"], [6; 1]))]) /\
  (exists s, vec_sort sort_nat ex_v (Some ["t"; "u"]) = Ok s /\
     show s = [("x", (["t*u"], [2; 2; 4; 4; 5; 5])); ("y", (["t*u"], [0; 1; 3; 7; 8; 9])); ("z", ([], [4])); ("w", (["t*u"], [1; 1; 1; 6; 6; 6]))]) /\
  (exists it r, vec_argsort argsort_nat ex_v (Some ["t"; "u"]) = Ok it /\ vec_getitem ex_v it = Ok r /\
     show r = [("x", (["t*u"], [2; 2; 4; 4; 5; 5])); ("y", (["t*u"], [0; 1; 3; 7; 8; 9])); ("z", ([], [4])); ("w", (["t*u"], [1; 1; 1; 6; 6; 6]))]).
Proof.
  split; [eexists; split; vm_compute; reflexivity|]. split; [eexists; split; vm_compute; reflexivity|].
  do 2 eexists; split; [vm_compute; reflexivity|]. split; vm_compute; reflexivity.
Qed.

(** A component of size one along the sorted axis: [np.sort] repeats it, but the indices of
    [np.argsort] do not fit the component any more. *)
Theorem C88_argsort_refuted :
  exists (v : vec nat) (sh : shape) (s : vec nat) (it : dict (tree item)), is_node v /\ vec_wf v /\ filled v /\ vec_shape v = Ok sh /\ In "t" (dkeys sh) /\
    vec_sort sort_nat v (Some ["t"]) = Ok s /\ vec_argsort argsort_nat v (Some ["t"]) = Ok it /\ vec_getitem v it = Err IndexError.
Proof.
  exists (Node "V" [("x", Leaf (OpArr ex_x)); ("y", Leaf (OpArr (mkS (of_list 0 [1] [7]) ["t"])))]), [("t", 3)]. do 2 eexists.
  split; [eexists; eexists; reflexivity|]. split.
  { constructor; [nodup|]. intros c x H. simpl in H. destruct H as [H|[H|[]]]; injection H as <- <-; constructor; split; try reflexivity; nodup. }
  split.
  { intros [|c p] ty names; cbn [kind].
    - intros [= <- <-]. discriminate.
    - cbn [dget]. repeat (match goal with |- context [String.eqb ?a ?b] => destruct (String.eqb a b) end; [destruct p; discriminate|]). discriminate. }
  split; [vm_compute; reflexivity|]. split; [now left|]. split; [vm_compute; reflexivity|]. split; vm_compute; reflexivity.
Qed.
Print Assumptions C88_argsort_refuted.

Definition ex_i : dict (operand Z) := [("x", OpArr (mkS (of_list 0%Z [2] [4; 1]%Z) ["a"])); ("y", OpArr (mkS (of_list 0%Z [3] [0; 5; 2]%Z) ["b"]))].

(** the positions are those of a table of two rows and three columns; all of them are valid *)
Theorem C88_unravel_index_refuted :
  exists (cs : dict (operand Z)) (sh : shape), NoDup (dkeys cs) /\ NoDup (dkeys sh) /\
    (forall c o, In (c, o) cs -> exists a r, o = OpArr a /\ wf a /\ na_unravel_index a sh = Ok r) /\
    vec_unravel_index "V" cs sh = Err KeyError.
Proof.
  exists ex_i, [("r", 2); ("c", 3)]. split; [nodup|]. split; [nodup|]. split; [|vm_compute; reflexivity].
  intros c o [H|[H|[]]]; injection H as <- <-; do 2 eexists; (split; [reflexivity|]); (split; [split; [nodup|reflexivity]|]); vm_compute; reflexivity.
Qed.
Print Assumptions C88_unravel_index_refuted.

Example C88_example_unravel :
  vec_shape (Node "V" (as_leaves ex_i)) = Ok [("a", 2); ("b", 3)] /\
  exists d, vec_unravel_index "V" ex_i [("a", 2); ("b", 3)] = Ok d /\
    map (fun kv => (fst kv, match snd kv with Node _ cs => map (fun kv => match snd kv with Leaf (OpArr a) => ravel (s_nd a) | _ => [] end) cs | _ => [] end)) d
    = [("a", [[1; 0]; [0; 1; 0]]%Z); ("b", [[1; 1]; [0; 2; 2]]%Z)].
Proof. split; [vm_compute; reflexivity|]. eexists. split; vm_compute; reflexivity. Qed.

(** a plain number as index is refused *)
Example C88_example_unravel_number :
  vec_unravel_index "V" [("x", OpArr (mkS (of_list 0%Z [2] [4; 1]%Z) ["a"])); ("y", OpNum 1%Z)] [("a", 6)] = Err TypeError.
Proof. vm_compute. reflexivity. Qed.
