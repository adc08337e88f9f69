(** C26: cartesian_nd flattening round-trips. *)
From Coq Require Import Ascii String List Arith ZArith Bool Lia.
From Verif Require Import Base Numpy Shapes Scalar Elementwise Vector Spec SpecVector CartesianFacts.
Import ListNotations.
Open Scope nat_scope.
Open Scope list_scope.

(** The flat vector has exactly one entry for each leaf, in order, under the
    dotted path of the leaf. *)
Theorem C26_entries :
  forall (L : Type) (t : tree L),
  (exists ty cs, t = Node ty cs) -> tree_ok (fun _ => True) t -> dotless_names t ->
  cartesian_nd t = combine (map (String.concat ".") (paths t)) (leaves t) /\
  length (cartesian_nd t) = length (leaves t) /\
  NoDup (dkeys (cartesian_nd t)).
Proof. exact @cartesian_nd_full. Qed.
Print Assumptions C26_entries.

(** Going back with the vector itself as a template gives the vector. *)
Theorem C26_round_trip :
  forall (L : Type) (t : tree L),
  (exists ty cs, t = Node ty cs) -> tree_ok (fun _ => True) t -> dotless_names t ->
  from_cartesian_nd (cartesian_nd t) t = Ok t.
Proof. exact @cartesian_round_trip. Qed.
Print Assumptions C26_round_trip.

(** From any flat vector: the result has the types and names of the template and
    every leaf is the entry under its dotted path. *)
Theorem C26_from_cartesian_nd :
  forall (L : Type) (like : tree L) (nd : dict L) (r : tree L),
  from_cartesian_nd nd like = Ok r ->
  (forall p, kind r p = kind like p) /\
  forall p, match leaf_at like p with
            | Some _ => leaf_at r p = dget nd (String.concat "." p) /\ leaf_at r p <> None
            | None => leaf_at r p = None
            end.
Proof. exact @from_nd_spec. Qed.
Print Assumptions C26_from_cartesian_nd.

Theorem C26_from_cartesian_nd_success :
  forall (L : Type) (like : tree L) (nd : dict L),
  (exists ty cs, like = Node ty cs) -> tree_ok (fun _ => True) like ->
  (forall p, leaf_at like p <> None -> dget nd (String.concat "." p) <> None) ->
  exists r, from_cartesian_nd nd like = Ok r.
Proof. exact @from_nd_total. Qed.
Print Assumptions C26_from_cartesian_nd_success.

Open Scope string_scope.

(** names that are prefixes of one another, at two levels *)
Definition ex_t : tree nat :=
  Node "Nd" [("p", Node "Nd" [("x", Leaf 1); ("xx", Leaf 2); ("q", Node "Nd" [("x", Leaf 3)])]);
             ("px", Leaf 4); ("x", Leaf 5); ("pp", Node "Nd" [("x", Leaf 6)])].

Example C26_example :
  cartesian_nd ex_t = [("p.x", 1); ("p.xx", 2); ("p.q.x", 3); ("px", 4); ("x", 5); ("pp.x", 6)] /\
  from_cartesian_nd (cartesian_nd ex_t) ex_t = Ok ex_t.
Proof. split; reflexivity. Qed.

Example C26_example_hypotheses : tree_ok (fun _ => True) ex_t /\ dotless_names ex_t.
Proof.
  split; repeat first [apply leaf_ok; exact I | apply dl_leaf |
    apply node_ok; [repeat constructor; simpl; intuition discriminate|simpl; intros ? ? H; repeat (destruct H as [H|H]; [injection H as <- <-|]); [..|contradiction]] |
    apply dl_node; simpl; intros ? ? H; repeat (destruct H as [H|H]; [injection H as <- <-; split; [intros K; simpl in K; intuition discriminate|]|]); [..|contradiction]].
Qed.

(** the hypothesis on dots is needed: these two leaves share an entry, and the
    round trip changes the first one *)
Example C26_example_dots :
  let t := Node "Nd" [("a", Node "Nd" [("b", Leaf 1)]); ("a.b", Leaf 2)] in
  cartesian_nd t = [("a.b", 2)] /\ from_cartesian_nd (cartesian_nd t) t <> Ok t.
Proof. split; [reflexivity|discriminate]. Qed.
