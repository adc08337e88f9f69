(** C60: indexing and reductions of uncertain arrays act on the nominal value and
    on every sample in the same way. *)
From Coq Require Import String List Arith ZArith Bool Lia.
From Verif Require Import Base BaseFacts Numpy Shapes Scalar Elementwise Vector Uncertain Spec SpecUncertain UncertainFacts
  UncertainIndexFacts.
Import ListNotations.
Open Scope nat_scope.
Open Scope list_scope.

(** Every value of the result is a value of the array in the same world, at the
    position that the items select in that world; index arrays may be uncertain,
    and then every sample follows its own sample of the index.  The axis of the
    samples may itself be indexed, which renumbers the samples. *)
Theorem C60_getitem :
  forall (A : Type) (u : unc A) (it : dict uitem) (r : unc A),
  u_wf u -> NoDup (dkeys it) -> Forall (fun kv => uitem_wf (snd kv)) it -> u_getitem u it = Ok r ->
  u_wf r /\
  forall w e, u_inside r w e -> exists w' e', u_inside u w' e' /\ u_at (Uncertain r) w e = u_at (Uncertain u) w' e' /\
    (forall ax n, In (ax, n) (op_shape (u_part u w)) -> ax <> axis_distribution ->
       u_selects n (dget it ax) w e ax (e' ax)) /\
    match w, w' with
    | None, None => True
    | Some k, Some k' => forall n, In (axis_distribution, n) (op_shape (u_distribution u)) ->
        u_selects n (dget it axis_distribution) (Some k) e axis_distribution k'
    | _, _ => False
    end.
Proof. exact @u_getitem_spec. Qed.
Print Assumptions C60_getitem.

(** Indexing succeeds exactly when no item is None and, in both parts, the index
    arrays broadcast, every item is in range and no axis of an index array has
    the name of a kept axis; the nominal value must not get the axis of the
    samples. *)
Theorem C60_success :
  forall (A : Type) (u : unc A) (it : dict uitem),
  u_wf u -> NoDup (dkeys it) -> Forall (fun kv => uitem_wf (snd kv)) it ->
  ((exists r, u_getitem u it = Ok r) <->
   (forall ax, ~ In (ax, Plain ItNone) it) /\
   forall w, exists sa, broadcast_shapes (index_shapes (dkeys (op_shape (u_part u w))) (items_in it w)) = Ok sa /\
     (forall ax n, In (ax, n) (op_shape (u_part u w)) -> item_ok n (dget (items_in it w) ax)) /\
     (forall ax, In ax (dkeys sa) -> In ax (dkeys (op_shape (u_part u w))) -> keeps_axis (dget (items_in it w) ax) = false) /\
     (w = None -> ~ In axis_distribution (dkeys sa))).
Proof. exact @u_getitem_success. Qed.
Print Assumptions C60_success.

(** With integers and slices that suit the sizes, indexing succeeds, and one and
    the same position is read in all the worlds.  Missing from the full
    statement: arrays whose nominal value and samples disagree about the size of
    an axis (one of them being 1); see below. *)
Theorem C60_basic_partial :
  forall (A : Type) (u : unc A) (it : dict item),
  u_wf u -> NoDup (dkeys it) -> ~ In axis_distribution (dkeys it) ->
  (forall ax i, In (ax, i) it -> i <> ItNone /\ forall v, i <> ItArr v) ->
  (forall ax n m, In (ax, n) (op_shape (u_nominal u)) -> In (ax, m) (op_shape (u_distribution u)) -> n = m) ->
  (forall w ax n, In (ax, n) (op_shape (u_part u w)) -> item_ok n (dget it ax)) ->
  exists r, u_getitem u (map (fun kv => (fst kv, Plain (snd kv))) it) = Ok r /\ u_wf r /\
    (forall w ax n, In (ax, n) (op_shape (u_part u w)) -> keeps_axis (dget it ax) = true ->
       exists m, In (ax, m) (op_shape (u_part r w)) /\
         match dget it ax with Some (ItSlice s) => forall j, j < m <-> exists p, slice_selects s n j p | _ => m = n end) /\
    (forall w ax m, In (ax, m) (op_shape (u_part r w)) ->
       exists n, In (ax, n) (op_shape (u_part u w)) /\ keeps_axis (dget it ax) = true) /\
    forall e, (forall w ax m, In (ax, m) (op_shape (u_part r w)) -> ax <> axis_distribution -> e ax < m) ->
      exists e',
        (forall w ax n, In (ax, n) (op_shape (u_part u w)) -> ax <> axis_distribution ->
           e' ax < n /\ selects n (dget it ax) e ax (e' ax)) /\
        forall w, u_inside r w e -> u_inside u w e' /\ u_at (Uncertain r) w e = u_at (Uncertain u) w e'.
Proof. exact @u_getitem_basic. Qed.
Print Assumptions C60_basic_partial.

(** A reduction without a mask reduces the nominal values and each sample over
    the same positions in the same order; the axes of the samples are kept. *)
Theorem C60_reduce :
  forall (A B : Type) (identity : bool) (f : list A -> B) (u : unc A) (axis : option (list string)) (keepdims : bool) (sh : shape),
  u_wf u -> u_shape u = Ok sh ->
  let S := match axis with Some l => l | None => dkeys sh end in
  NoDup S -> incl S (dkeys sh) -> identity = true \/ total_size sh S <> 0 ->
  exists r, u_reduce identity f u axis keepdims None = Ok r /\ u_wf r /\
    (forall ax n, In (ax, n) (op_shape (u_nominal r)) <->
       In ax (dkeys sh) /\ (keepdims = true \/ ~ In ax S) /\ n = if smem ax S then 1 else size_of sh ax) /\
    (forall ax n, In (ax, n) (op_shape (u_distribution r)) <->
       In (ax, n) (op_shape (u_nominal r)) \/ (ax = axis_distribution /\ In (ax, n) (op_shape (u_distribution u)))) /\
    forall w e, u_inside r w e ->
      u_at (Uncertain r) w e = f (map (u_at (Uncertain u) w) (fibre sh (filter (fun ax => smem ax S) (dkeys sh)) e)).
Proof. exact @u_reduce_spec. Qed.
Print Assumptions C60_reduce.

Open Scope string_scope.

(** two elements along x in two samples, the same constant nominal value *)
Definition flat60 : unc nat :=
  mkU (OpArr (mkS (mkNd [1] (fun _ => 7)) ["x"]))
      (OpArr (mkS (mkNd [2; 3] (fun i => 10 * nth 0 i 0 + nth 1 i 0)) ["_distribution"; "x"])).

(** The array has the shape x: 3, but its last element cannot be read, and a
    slice that selects two positions leaves no nominal value. *)
Theorem C60_basic_refuted :
  u_wf flat60 /\ u_shape flat60 = Ok [("x", 3)] /\
  u_getitem flat60 [("x", Plain (ItInt 2))] = Err IndexError /\
  exists r, u_getitem flat60 [("x", Plain (ItSlice (mkSlice (Some 1%Z) None None)))] = Ok r /\
    op_shape (u_nominal r) = [("x", 0)] /\ op_shape (u_distribution r) = [("_distribution", 2); ("x", 2)].
Proof.
  split; [|split; [|split; [|eexists; split; [|split]]]]; try (vm_compute; reflexivity).
  split; [|split].
  - split; [repeat constructor; simpl; intuition discriminate|reflexivity].
  - split; [repeat constructor; simpl; intuition discriminate|reflexivity].
  - simpl. intuition discriminate.
Qed.
Print Assumptions C60_basic_refuted.

(** an array with two samples; the distribution is stored in another order *)
Definition u60 : unc nat :=
  mkU (OpArr (mkS (mkNd [2; 3] (fun i => 10 * nth 0 i 0 + nth 1 i 0)) ["y"; "x"]))
      (OpArr (mkS (mkNd [3; 2; 2] (fun i => nth 0 i 0 + 10 * nth 2 i 0 + 100 * (1 + nth 1 i 0))) ["x"; "_distribution"; "y"])).
Definition show60 (r : res (unc nat)) : list (shape * list nat) :=
  match r with
  | Ok u => map (fun a => (sshape a, map (nget (s_nd a)) (ndindex (nshape (s_nd a)))))
                [normalize (u_nominal u); normalize (u_distribution u)]
  | Err _ => []
  end.

Example C60_wf : u_wf u60.
Proof.
  split; [|split].
  - split; [repeat constructor; simpl; intuition discriminate|reflexivity].
  - split; [repeat constructor; simpl; intuition discriminate|reflexivity].
  - simpl. intuition discriminate.
Qed.

Example C60_indexed :
  show60 (u_getitem u60 [("x", Plain (ItSlice (mkSlice (Some (-2)%Z) None None))); ("y", Plain (ItInt (-1)))]) =
  [([("x", 2)], [11; 12]); ([("x", 2); ("_distribution", 2)], [111; 211; 112; 212])].
Proof. vm_compute. reflexivity. Qed.

(** an uncertain index that picks another element in each sample *)
Example C60_uncertain_index :
  let d := OpArr (mkS (mkNd [2] (fun i => Z.of_nat (nth 0 i 0))) ["_distribution"]) in
  show60 (u_getitem u60 [("x", Index (mkU (OpNum 2%Z) d)); ("_distribution", Index (mkU (OpNum 0%Z) d))]) =
  [([("y", 2)], [2; 12]); ([("_distribution", 2); ("y", 2)], [100; 110; 201; 211])].
Proof. vm_compute. reflexivity. Qed.

Example C60_sums :
  show60 (u_reduce true (fold_right Nat.add 0) u60 (Some ["x"]) false None) =
  [([("y", 2)], [3; 33]); ([("y", 2); ("_distribution", 2)], [303; 603; 333; 633])].
Proof. vm_compute. reflexivity. Qed.
