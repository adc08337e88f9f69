(** C90: argmin and argmax of a vector address the extreme element of every component. *)
From Coq Require Import String List Arith ZArith Bool Lia.
From Verif Require Import Base Numpy Shapes Scalar Reorder Elementwise Reduce Along Sorting Vector VectorSort VectorReduce VectorArg
  Spec SpecVector SpecMatrix SpecVectorReduce SpecVectorArg AlignFacts SortingFacts VectorArgFacts.
Import ListNotations.
Open Scope nat_scope.
Open Scope list_scope.

(** Indexing the vector with the dictionary gives, for every scalar of the vector, the
    first of its least elements along those of the axes [l] that it has; the
    dictionary has an entry for every axis of the scalars that were searched, and [None] for the
    scalars that were not.  With the reversed order this is argmax. *)
Theorem C90_argmin :
  forall (A : Type) (le : A -> A -> Prop) (pick : list A -> nat) (arrange : list string -> list string)
    (ty : string) (cs : list (string * vec A)) (l : list string) (sh : shape),
  let v := Node ty cs in
  first_least le pick -> lists_set arrange -> vec_wf v -> vec_shape v = Ok sh -> NoDup l -> incl l (dkeys sh) -> searchable v l ->
  exists it r, vec_arg_reduce arrange pick v (Some l) = Ok it /\ vec_getitem v it = Ok r /\ same_kind v r /\ NoDup (dkeys it) /\
    (forall ax, In ax (dkeys it) <-> exists p o, leaf_at v p = Some o /\ shared l (op_shape o) <> [] /\ In ax (dkeys (op_shape o))) /\
    forall p o, leaf_at v p = Some o -> exists ro, leaf_at r p = Some ro /\ op_wf ro /\
      (forall ax n, In (ax, n) (op_shape ro) <-> In (ax, n) (op_shape o) /\ ~ In ax l) /\
      (shared l (op_shape o) = [] -> forall ax t, dget it ax = Some t -> reaches t p = Some ItNone) /\
      forall e, inside e (op_shape ro) -> exists q, first_at le o l e q /\ op_at ro e = op_at o q /\
        (shared l (op_shape o) <> [] -> forall ax, In ax (dkeys (op_shape o)) ->
           exists t w, dget it ax = Some t /\ reaches t p = Some (ItArr w) /\ bat w e = Z.of_nat (q ax)).
Proof. exact @vec_argmin_spec. Qed.
Print Assumptions C90_argmin.

(** [v[np.argmin(v, axis)]] is [np.min(v, axis)], although the minimum is taken of the
    broadcast components. *)
Theorem C90_argmin_min :
  forall (A : Type) (le : A -> A -> Prop) (pick : list A -> nat) (m : list A -> A) (arrange : list string -> list string)
    (ty : string) (cs : list (string * vec A)) (l : list string) (sh : shape),
  let v := Node ty cs in
  (forall x y, le x y -> le y x -> x = y) -> first_least le pick -> least le m -> lists_set arrange ->
  vec_wf v -> filled v -> vec_shape v = Ok sh -> NoDup l -> incl l (dkeys sh) -> (forall ax, In ax l -> size_of sh ax <> 0) -> searchable v l ->
  exists it r w, vec_arg_reduce arrange pick v (Some l) = Ok it /\ vec_getitem v it = Ok r /\
    vec_reduce false m v (Some l) false None = Ok w /\ same_kind r w /\
    forall p ro wo, leaf_at r p = Some ro -> leaf_at w p = Some wo ->
      forall e, inside e (reduced false l sh) -> op_at ro e = op_at wo e.
Proof. exact @vec_argmin_min. Qed.
Print Assumptions C90_argmin_min.

(** Without [axis]: all the axes of the vector, of which there must be one. *)
Theorem C90_all_axes :
  forall (A : Type) (arrange : list string -> list string) (pick : list A -> nat) (v : vec A) (sh : shape), vec_shape v = Ok sh ->
  (sh <> [] -> vec_arg_reduce arrange pick v None = vec_arg_reduce arrange pick v (Some (dkeys sh))) /\
  (sh = [] -> vec_arg_reduce arrange pick v None = Err ValueError).
Proof. intros A arrange pick v sh E. split; [exact (vec_arg_none arrange pick v sh E)|intros ->; exact (vec_arg_scalar arrange pick v E)]. Qed.
Print Assumptions C90_all_axes.

(** An unknown axis is refused, and so is a scalar that has one of the axes but no element, or an
    axis with the name of their combination, or that is searched along an axis twice. *)
Theorem C90_refused :
  forall (A : Type) (arrange : list string -> list string) (pick : list A -> nat) (ty : string) (cs : list (string * vec A)) (l : list string) (sh : shape),
  let v := Node ty cs in
  lists_set arrange -> (forall x, x <> [] -> pick x < length x) -> vec_wf v -> vec_shape v = Ok sh ->
  (~ incl l (dkeys sh) \/ exists p a, leaf_at v p = Some (OpArr a) /\ shared l (sshape a) <> [] /\
     (~ NoDup (shared l (sshape a)) \/ (exists ax, In (ax, 0) (sshape a)) \/
      exists ax, In ax (s_axes a) /\ ~ In ax l /\ ax = flat_name (shared l (sshape a)))) ->
  vec_arg_reduce arrange pick v (Some l) = Err ValueError.
Proof. exact @vec_arg_refused. Qed.
Print Assumptions C90_refused.

Open Scope string_scope.

(** ** Examples *)

(** two orders of a set *)
Example C90_example_order : lists_set (nodup string_dec) /\ lists_set (fun l => rev (nodup string_dec l)) /\ first_least le argmin_nat /\ least le min_nat.
Proof.
  split; [intros l; split; [apply NoDup_nodup|intros x; apply nodup_In]|]. split; [|split; [apply argmin_nat_first|apply min_nat_least]].
  intros l. split; [apply NoDup_rev, NoDup_nodup|intros x; rewrite <- in_rev; apply nodup_In].
Qed.

Definition arr (sh : list nat) (axes : list string) (l : list nat) : vec nat := Leaf (OpArr (mkS (of_list 0 sh l) axes)).
(** a number, an array with both axes, one with one axis, and one of length 1 *)
Definition ex : vec nat :=
  Node "SpectralPositional" [("wavelength", Leaf (OpNum 7));
    ("position", Node "Cartesian3d" [("x", arr [2; 3] ["t"; "u"] [5; 2; 8; 1; 2; 0]); ("y", arr [3] ["u"] [30; 10; 10]); ("z", arr [1] ["t"] [4])])].

Ltac names := repeat constructor; cbn; intuition discriminate.
Example C90_example_hypotheses :
  vec_wf ex /\ filled ex /\ vec_shape ex = Ok [("t", 2); ("u", 3)] /\ searchable ex ["t"] /\ searchable ex ["u"; "t"] /\
  (forall ax, In ax ["u"; "t"] -> size_of [("t", 2); ("u", 3)] ax <> 0).
Proof.
  split; [|split; [|split; [reflexivity|split; [|split]]]].
  - constructor; [names|]. intros c x [H|[H|[]]]; injection H as <- <-; [now constructor|]. constructor; [names|].
    intros c x [H|[H|[H|[]]]]; injection H as <- <-; constructor; (split; [names|reflexivity]).
  - intros p ty cs H ->. destruct p as [|c p]; [discriminate|]. cbn in H.
    destruct (String.eqb c "wavelength"); [destruct p; discriminate|]. destruct (String.eqb c "position"); [|discriminate].
    destruct p as [|c' p]; [discriminate|]. cbn in H. destruct (String.eqb c' "x"); [destruct p; discriminate|].
    destruct (String.eqb c' "y"); [destruct p; discriminate|]. destruct (String.eqb c' "z"); [destruct p; discriminate|discriminate].
  - intros p a L _. destruct p as [|c p]; [discriminate|]. cbn in L.
    destruct (String.eqb c "wavelength"); [destruct p; discriminate|]. destruct (String.eqb c "position"); [|discriminate].
    destruct p as [|c' p]; [discriminate|]. cbn in L.
    repeat (match type of L with context [String.eqb c' ?s] => destruct (String.eqb c' s) end; [destruct p; [|discriminate]; injection L as <-; split; cbn; intuition; subst; try discriminate;
        match goal with E : (_, _) = (_, _) |- _ => injection E as <- <-; discriminate end|]). discriminate.
  - intros p a L _. destruct p as [|c p]; [discriminate|]. cbn in L.
    destruct (String.eqb c "wavelength"); [destruct p; discriminate|]. destruct (String.eqb c "position"); [|discriminate].
    destruct p as [|c' p]; [discriminate|]. cbn in L.
    repeat (match type of L with context [String.eqb c' ?s] => destruct (String.eqb c' s) end; [destruct p; [|discriminate]; injection L as <-; split; cbn; intuition; subst; try discriminate;
        match goal with E : (_, _) = (_, _) |- _ => injection E as <- <-; discriminate end|]). discriminate.
  - intros ax [<- |[<- |[]]]; discriminate.
Qed.

Definition show (r : res (vec nat)) : res (list (list string * list (list string * list nat * list nat))) :=
  match r with
  | Err e => Err e
  | Ok v => Ok (map (fun p => (p, match leaf_at v p with Some (OpArr a) => [(s_axes a, nshape (s_nd a), ravel (s_nd a))] | _ => [] end)) (paths v))
  end.
Definition show_item (i : item) : list Z := match i with ItArr a => ravel (s_nd a) | _ => [(-1)%Z] end.
Definition show_dict (r : res (dict (tree item))) : res (list (string * list (list string * option (list Z)))) :=
  match r with
  | Err e => Err e
  | Ok d => Ok (map (fun kv => (fst kv, map (fun p => (p, option_map show_item (reaches (snd kv) p))) (paths ex))) d)
  end.

(** the indices, the elements there and the minimum; [-1] stands for [None] *)
Example C90_example_values :
  show_dict (vec_arg_reduce (nodup string_dec) argmin_nat ex (Some ["u"])) =
    Ok [("t", [(["wavelength"], Some [(-1)%Z]); (["position"; "x"], Some [0; 1]%Z); (["position"; "y"], Some [(-1)%Z]); (["position"; "z"], Some [(-1)%Z])]);
        ("u", [(["wavelength"], Some [(-1)%Z]); (["position"; "x"], Some [1; 2]%Z); (["position"; "y"], Some [1]%Z); (["position"; "z"], Some [(-1)%Z])])] /\
  show (it <- vec_arg_reduce (nodup string_dec) argmin_nat ex (Some ["u"]) ;; vec_getitem ex it) =
    Ok [(["wavelength"], []); (["position"; "x"], [(["t"], [2], [2; 0])]); (["position"; "y"], [([], [], [10])]); (["position"; "z"], [(["t"], [1], [4])])] /\
  show (vec_reduce false min_nat ex (Some ["u"]) false None) =
    Ok [(["wavelength"], [([], [], [7])]); (["position"; "x"], [(["t"], [2], [2; 0])]); (["position"; "y"], [(["t"], [2], [10; 10])]); (["position"; "z"], [(["t"], [2], [4; 4])])] /\
  show (it <- vec_arg_reduce (nodup string_dec) argmin_nat ex None ;; vec_getitem ex it) =
    Ok [(["wavelength"], []); (["position"; "x"], [([], [], [0])]); (["position"; "y"], [([], [], [10])]); (["position"; "z"], [([], [], [4])])] /\
  vec_arg_reduce (nodup string_dec) argmin_nat ex (Some ["w"]) = Err ValueError /\
  vec_arg_reduce (nodup string_dec) argmin_nat (Node "Cartesian2d" [("x", Leaf (OpNum 1)); ("y", Leaf (OpNum 2))]) None = Err ValueError /\
  vec_arg_reduce (nodup string_dec) argmin_nat (Node "Cartesian2d" [("x", arr [0] ["t"] []); ("y", Leaf (OpNum 2))]) (Some ["t"]) = Err ValueError.
Proof. split; [|split; [|split; [|split; [|split; [|split]]]]]; vm_compute; reflexivity. Qed.
