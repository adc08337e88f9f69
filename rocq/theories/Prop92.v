(** C92: [np.nonzero] gives the positions of the elements that are true. *)
From Coq Require Import String List Arith ZArith Bool Lia Sorted.
From Verif Require Import Base Numpy Shapes Scalar Elementwise Vector Spec SpecVectorReduce SpecNonzero Nonzero NonzeroFacts.
Import ListNotations.
Open Scope nat_scope.
Open Scope list_scope.

(** For an array with axes there is one array of positions for each axis; the [k]-th entries are
    the [k]-th position, in row-major order, where the element is true. *)
Theorem C92_positions :
  forall (A : Type) (truth : A -> bool) (a : sarr A) (l : list (list nat)),
  wf a -> s_axes a <> [] -> found truth a l ->
  exists d, na_nonzero truth a = Ok d /\ dkeys d = s_axes a /\
  forall ax b, dget d ax = Some b ->
    wf b /\ sshape b = [(String.concat "*" (s_axes a), length l)] /\
    forall e, inside e (sshape b) ->
      exists e', inside e' (sshape a) /\ truth (at_ a e') = true /\
        nth_error l (e (String.concat "*" (s_axes a))) = Some (map e' (s_axes a)) /\
        at_ b e = Z.of_nat (e' ax).
Proof. exact @na_nonzero_spec. Qed.
Print Assumptions C92_positions.

(** An array without axes gives no positions. *)
Theorem C92_positions_0d :
  forall (A : Type) (truth : A -> bool) (a : sarr A), wf a -> s_axes a = [] -> na_nonzero truth a = Ok [].
Proof. exact @na_nonzero_0d. Qed.
Print Assumptions C92_positions_0d.

(** Indexing by the positions of a mask with axes is indexing by the mask. *)
Theorem C92_mask_partial :
  forall (A : Type) (a r : sarr A) (m : sarr bool),
  wf a -> wf m -> s_axes m <> [] -> getitem_mask a m = Ok r ->
  exists d r', na_nonzero (fun b => b) m = Ok d /\ getitem a (as_index d) = Ok r' /\ same_array r r'.
Proof. exact @getitem_nonzero. Qed.
Print Assumptions C92_mask_partial.

(** Not of a mask without axes: indexing by the mask gives an empty array when it is false, indexing
    by its positions gives the whole array. *)
Theorem C92_mask_refuted :
  exists (a : sarr Z) (m : sarr bool) r d r', wf a /\ wf m /\ getitem_mask a m = Ok r /\ size_of (sshape r) "boolean" = 0 /\
    na_nonzero (fun b => b) m = Ok d /\ getitem a (as_index d) = Ok r' /\ r' = a.
Proof.
  exists (mkS (of_list 0%Z [2] [5; 6]%Z) ["x"%string]), (mkS (scalar false) []).
  do 3 eexists. split; [split; [repeat constructor; intros []|reflexivity]|].
  split; [split; [constructor|reflexivity]|]. split; [reflexivity|]. split; [reflexivity|]. split; [reflexivity|].
  split; reflexivity.
Qed.
Print Assumptions C92_mask_refuted.

(** For a vector of masks the positions are those where every component is true. *)
Theorem C92_vector_partial :
  forall (cs : dict (operand Z)) (T : shape),
  Forall op_wf (map snd cs) -> Forall bits (map snd cs) -> joint (map op_shape (map snd cs)) T ->
  (exists o, In (OpArr o) (map snd cs)) ->
  exists m, wf m /\ same_shape (sshape m) T /\
    (forall e, inside e (sshape m) -> (at_ m e = true <-> forall x, In x (map snd cs) -> op_at x e <> 0%Z)) /\
    vec_nonzero cs = na_nonzero (fun b => b) m.
Proof. exact vec_nonzero_spec. Qed.
Print Assumptions C92_vector_partial.

(** Components that do not broadcast, or that are all plain numbers, are refused. *)
Theorem C92_vector_conflict :
  forall cs : dict (operand Z),
  Forall op_wf (map snd cs) -> Forall bits (map snd cs) -> ~ (exists T, joint (map op_shape (map snd cs)) T) ->
  vec_nonzero cs = Err ValueError.
Proof. exact vec_nonzero_conflict. Qed.
Print Assumptions C92_vector_conflict.

Theorem C92_vector_numbers :
  forall cs : dict (operand Z), (forall x, In x (map snd cs) -> exists z, x = OpNum z) -> vec_nonzero cs = Err ValueError.
Proof. exact vec_nonzero_numbers. Qed.
Print Assumptions C92_vector_numbers.

(** Not of a vector of integers: the components are combined bit by bit, so that elements which
    are nonzero in every component are missed. *)
Theorem C92_vector_refuted :
  exists (x y : sarr Z) d, wf x /\ wf y /\ (forall e, at_ x e <> 0%Z) /\ (forall e, at_ y e <> 0%Z) /\
    vec_nonzero [("x"%string, OpArr x); ("y"%string, OpArr y)] = Ok [("a"%string, d)] /\
    sshape d = [("a"%string, 0)].
Proof.
  exists (mkS (mkNd [3] (fun _ => 2%Z)) ["a"%string]), (mkS (mkNd [3] (fun _ => 2%Z)) ["a"%string]). eexists.
  split; [split; [repeat constructor; intros []|reflexivity]|].
  split; [split; [repeat constructor; intros []|reflexivity]|].
  split; [discriminate|]. split; [discriminate|]. split; reflexivity.
Qed.
Print Assumptions C92_vector_refuted.

Open Scope string_scope.

Definition show (r : res (dict (sarr Z))) : option (list (string * (shape * list Z))) :=
  match r with Ok d => Some (map (fun kv => (fst kv, (sshape (snd kv), ravel (s_nd (snd kv))))) d) | Err _ => None end.

(* a mask with the axes z and x, true at (0, 1), (2, 0), (2, 1) *)
Definition ex_m : sarr bool :=
  mkS (of_list false [3; 2] [false; true; false; false; true; true]) ["z"; "x"].
Definition ex_a : sarr Z :=
  mkS (mkNd [2; 2; 3] (fun i => fold_left (fun x k => 10 * x + Z.of_nat k)%Z i 0%Z)) ["x"; "y"; "z"].

Example C92_example :
  wf ex_m /\ found (fun b => b) ex_m [[0; 1]; [2; 0]; [2; 1]] /\
  show (na_nonzero (fun b => b) ex_m) =
  Some [("z", ([("z*x", 3)], [0; 2; 2]%Z)); ("x", ([("z*x", 3)], [1; 0; 1]%Z))].
Proof.
  split; [split; [repeat constructor; simpl; intuition discriminate|reflexivity]|]. split; [|vm_compute; reflexivity].
  apply found_true. change [[0; 1]; [2; 0]; [2; 1]] with (filter (nget (s_nd ex_m)) (ndindex (nshape (s_nd ex_m)))).
  apply SetitemFacts.mask_positions. split; [repeat constructor; simpl; intuition discriminate|reflexivity].
Qed.

Example C92_example_mask :
  wf ex_a /\
  match getitem_mask ex_a ex_m with
  | Ok r => sshape r = [("y", 2); ("z*x", 3)] /\ ravel (s_nd r) = [100; 2; 102; 110; 12; 112]%Z
  | Err _ => False
  end /\
  match na_nonzero (fun b => b) ex_m with
  | Ok d => match getitem ex_a (as_index d) with
            | Ok r => sshape r = [("z*x", 3); ("y", 2)] /\ ravel (s_nd r) = [100; 110; 2; 12; 102; 112]%Z
            | Err _ => False
            end
  | Err _ => False
  end.
Proof.
  split; [split; [repeat constructor; simpl; intuition discriminate|reflexivity]|].
  split; vm_compute; auto.
Qed.

(* a mask of numbers, with the test of the code *)
Definition ex_x : operand Z := OpArr (mkS (of_list 0%Z [2; 3] [1; 0; 1; 1; 1; 0]%Z) ["a"; "b"]).
Definition ex_y : operand Z := OpArr (mkS (of_list 0%Z [3] [1; 1; 0]%Z) ["b"]).

Example C92_example_vector :
  Forall op_wf [ex_x; ex_y; OpNum 1%Z] /\ joint (map op_shape [ex_x; ex_y; OpNum 1%Z]) [("a", 2); ("b", 3)] /\
  show (vec_nonzero [("x", ex_x); ("y", ex_y); ("z", OpNum 1%Z)]) =
  Some [("a", ([("a*b", 3)], [0; 1; 1]%Z)); ("b", ([("a*b", 3)], [0; 0; 1]%Z))].
Proof.
  split.
  { repeat constructor; simpl; intuition discriminate. }
  split; [|vm_compute; reflexivity].
  split; [repeat constructor; simpl; intuition discriminate|]. split.
  - intros s [<- |[<- |[<- |[]]]] ax n H; cbn in H; [| |contradiction]; exists n; cbn; intuition.
  - intros ax n H. exists [("a", 2); ("b", 3)]. split; [left; reflexivity|exact H].
Qed.

(* the mask of the example has elements 0 and 1 *)
Example C92_example_bits : bits ex_y /\ ~ bits (OpNum 2%Z).
Proof.
  split.
  - intros e H. assert (L : e "b" < 3) by (apply H; now left). unfold ex_y, op_at. rewrite SortingFacts.bat_inside.
    + unfold at_. cbn [s_axes map s_nd]. destruct (e "b") as [|[|[|k]]]; cbn; auto. lia.
    + split; [repeat constructor; intros []|reflexivity].
    + exact H.
  - intros B. destruct (B (fun _ => 0)) as [Q|Q]; [intros ax n []|discriminate|discriminate].
Qed.
