(** C36: the seeds of the components of a random vector. *)
From Coq Require Import String List Arith ZArith Bool Lia.
From Verif Require Import Base BaseFacts Numpy Shapes Scalar Elementwise Vector Random Spec SpecRandom RandomFacts.
Import ListNotations.
Open Scope nat_scope.
Open Scope list_scope.

(** The component at a path of positions is sampled with the seed increased by
    the sum of the positions, and the samples of an uncertain component with the
    next one.  Without a seed no component has one. *)
Theorem C36_seeds :
  forall (A B : Type) (sample : option Z -> A -> res B) (seed : option Z) (t : tree (rleaf A)) (r : tree (rleaf B)) (path : list nat),
  r_vector sample seed t = Ok r ->
  match leaf_at path t with
  | Some (RScalar a) => exists b, leaf_at path r = Some (RScalar b) /\ sample (seed_plus seed (total path)) a = Ok b
  | Some (RUncertain n d) => exists n' d', leaf_at path r = Some (RUncertain n' d') /\
      sample (seed_plus seed (total path)) n = Ok n' /\ sample (seed_plus seed (S (total path))) d = Ok d'
  | None => leaf_at path r = None
  end.
Proof. exact @r_vector_spec. Qed.
Print Assumptions C36_seeds.

(** Different components of a vector of scalars have different seeds.  Missing
    from the full statement: nested vectors, matrices, and uncertain components;
    see below. *)
Theorem C36_flat_partial :
  forall (A B : Type) (sample : option Z -> A -> res B) (s : Z) (ty : string) (cs : list (string * A)) (r : tree (rleaf B))
         (i j : nat) (ci cj : string) (ai aj : A),
  r_vector sample (Some s) (Node ty (map (fun p => (fst p, Leaf (RScalar (snd p)))) cs)) = Ok r ->
  nth_error cs i = Some (ci, ai) -> nth_error cs j = Some (cj, aj) -> i <> j ->
  exists si sj bi bj, si <> sj /\ sample (Some si) ai = Ok bi /\ sample (Some sj) aj = Ok bj /\
    leaf_at [i] r = Some (RScalar bi) /\ leaf_at [j] r = Some (RScalar bj).
Proof. exact @r_vector_flat. Qed.
Print Assumptions C36_flat_partial.

(** A random scalar has the common shape of its parameters and of the requested
    shape. *)
Theorem C36_scalar_shape :
  forall (A R : Type) (generate : option Z -> list nat -> list (nd A) -> list nat -> R) (shape_random : shape)
         (seed : option Z) (args : list (operand A)) (r : sarr R),
  Forall op_wf args -> NoDup (dkeys shape_random) -> r_scalar generate shape_random seed args = Ok r ->
  wf r /\ exists sb, broadcast_shapes (op_shapes args) = Ok sb /\ broadcast_shapes [sb; shape_random] = Ok (sshape r).
Proof. exact @r_scalar_spec. Qed.
Print Assumptions C36_scalar_shape.

Open Scope string_scope.

(** A random matrix whose four elements have the same parameters is symmetric,
    whatever the seed and the generator. *)
Theorem C36_matrix_refuted :
  forall (A B : Type) (sample : option Z -> A -> res B) (seed : option Z) (a : A) (r : tree (rleaf B)),
  let x := Leaf (RScalar a) in
  let row := fun ty => Node ty [("x", x); ("y", x)] in
  r_vector sample seed (Node "Cartesian2dMatrixArray" [("x", row "Cartesian2dVectorArray"); ("y", row "Cartesian2dVectorArray")]) = Ok r ->
  exists b, leaf_at [0; 1] r = Some (RScalar b) /\ leaf_at [1; 0] r = Some (RScalar b).
Proof.
  intros A B sample seed a r x row H.
  destruct (r_vector_spec sample _ _ _ [0; 1] H) as (b & L & E).
  destruct (r_vector_spec sample _ _ _ [1; 0] H) as (b' & L' & E').
  exists b. split; [exact L|]. rewrite L'. simpl total in E, E'. congruence.
Qed.
Print Assumptions C36_matrix_refuted.

(** In a vector of uncertain scalars, the samples of one component are drawn with
    the seed of the nominal value of the next one. *)
Theorem C36_uncertain_refuted :
  forall (A B : Type) (sample : option Z -> A -> res B) (seed : option Z) (n d : A) (r : tree (rleaf B)),
  r_vector sample seed (Node "Cartesian2dVectorArray" [("x", Leaf (RUncertain n d)); ("y", Leaf (RUncertain d n))]) = Ok r ->
  exists xn b yd, leaf_at [0] r = Some (RUncertain xn b) /\ leaf_at [1] r = Some (RUncertain b yd).
Proof.
  intros A B sample seed n d r H.
  destruct (r_vector_spec sample _ _ _ [0] H) as (xn & b & L & E1 & E2).
  destruct (r_vector_spec sample _ _ _ [1] H) as (b' & yd & L' & E1' & E2').
  exists xn, b, yd. split; [exact L|]. rewrite L'. simpl total in E2, E1'. congruence.
Qed.
Print Assumptions C36_uncertain_refuted.

(** the seeds used for a vector with a scalar, an uncertain scalar and a nested
    vector *)
Definition trace36 (seed : option Z) (a : nat) : res (option Z * nat) := Ok (seed, a).
Example C36_example :
  r_vector trace36 (Some 42%Z)
    (Node "V" [("wavelength", Leaf (RScalar 1)); ("x", Leaf (RUncertain 2 3));
               ("position", Node "W" [("x", Leaf (RScalar 4)); ("y", Leaf (RScalar 5))])]) =
  Ok (Node "V" [("wavelength", Leaf (RScalar (Some 42%Z, 1))); ("x", Leaf (RUncertain (Some 43%Z, 2) (Some 44%Z, 3)));
                ("position", Node "W" [("x", Leaf (RScalar (Some 44%Z, 4))); ("y", Leaf (RScalar (Some 45%Z, 5)))])]).
Proof. vm_compute. reflexivity. Qed.

Example C36_scalar_example :
  match r_scalar (fun s sizes ps i => (s, sizes, map (fun p => nget p (map (fun _ => 0) (nshape p))) ps, i)) [("t", 2)] (Some 7%Z)
                 [OpArr (mkS (mkNd [3] (fun i => nth 0 i 0)) ["x"]); OpNum 5] with
  | Ok r => Some (sshape r, nget (s_nd r) [1; 1])
  | Err _ => None
  end = Some ([("x", 3); ("t", 2)], (Some 7%Z, [3; 2], [0; 5], [1; 1])).
Proof. vm_compute. reflexivity. Qed.
