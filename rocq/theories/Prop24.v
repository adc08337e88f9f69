(** C24: fractional indexing interpolates exactly. *)
From Coq Require Import String List Arith ZArith QArith Qcanon Bool Lia Permutation.
From Verif Require Import Base Numpy Shapes Scalar Interp Spec SpecDerived SpecNumeric InterpFacts.
Import ListNotations.
Open Scope nat_scope.
Open Scope list_scope.

(** Every position belongs to exactly one segment of an axis with two positions
    or more. *)
Theorem C24_segment :
  forall (n : nat) (x : Qc), 2 <= n -> exists k, segment n x k /\ forall k', segment n x k' -> k' = k.
Proof. exact segment_unique. Qed.
Print Assumptions C24_segment.

(** Along one axis: the line through the two ends of the segment, also outside
    of the array. *)
Theorem C24_one_axis :
  forall (a x : sarr Qc) (ax : string) (B : shape), interp_args a [(ax, x)] B ->
  exists r, interp_linear a [(ax, x)] = Ok r /\ wf r /\ same_shape (sshape r) B /\
    forall e k, inside e B -> segment (size_of (sshape a) ax) (bat x e) k ->
      at_ r e = (bat a (set_env e ax k)
                 + (bat x e - qnat k) * (bat a (set_env e ax (k + 1)) - bat a (set_env e ax k)))%Qc.
Proof. exact interp_one. Qed.
Print Assumptions C24_one_axis.

(** Along several axes: the multilinear combination of the vertices of the
    cell. *)
Theorem C24_multilinear :
  forall (a : sarr Qc) (it : dict (sarr Qc)) (B : shape), interp_args a it B ->
  exists r, interp_linear a it = Ok r /\ wf r /\ same_shape (sshape r) B /\
    forall e k, inside e B ->
      (forall ax x, In (ax, x) it -> segment (size_of (sshape a) ax) (bat x e) (k ax)) ->
      at_ r e = sum Qcplus (Q2Qc 0) (map (fun c => (at_ a c *
          weight Qcmult Qcminus (Q2Qc 1) (map (fun kv => (fst kv, bat (snd kv) e - qnat (k (fst kv)))%Qc) it)
            (cell (sshape a) (dkeys it) k e) c)%Qc)
        (corners (dkeys it) (cell (sshape a) (dkeys it) k e))).
Proof. exact interp_spec. Qed.
Print Assumptions C24_multilinear.

(** At integer positions in range: the element of the array. *)
Theorem C24_integer :
  forall (a : sarr Qc) (it : dict (sarr Qc)) (B : shape), interp_args a it B ->
  exists r, interp_linear a it = Ok r /\
    forall e p, inside e B ->
      (forall ax x, In (ax, x) it -> p ax < size_of (sshape a) ax /\ bat x e = qnat (p ax)) ->
      at_ r e = at_ a (cell (sshape a) (dkeys it) p e).
Proof. exact interp_vertex. Qed.
Print Assumptions C24_integer.

(** An affine function of the positions is reproduced exactly, at every
    position. *)
Theorem C24_affine :
  forall (a : sarr Qc) (it : dict (sarr Qc)) (B : shape) (c : Qc) (s : string -> Qc), interp_args a it B ->
  (forall e, inside e (sshape a) -> at_ a e = affine Qcplus Qcmult (Q2Qc 0) c s (s_axes a) (fun ax => qnat (e ax))) ->
  exists r, interp_linear a it = Ok r /\
    forall e, inside e B ->
      at_ r e = affine Qcplus Qcmult (Q2Qc 0) c s (s_axes a)
        (fun ax => match dget it ax with Some x => bat x e | None => qnat (bclamp (sshape a) e ax) end).
Proof. exact interp_affine. Qed.
Print Assumptions C24_affine.

(** The order of the axes in the dictionary is irrelevant. *)
Theorem C24_order :
  forall (a : sarr Qc) (it it' : dict (sarr Qc)) (B : shape), interp_args a it B -> Permutation it it' ->
  exists r r', interp_linear a it = Ok r /\ interp_linear a it' = Ok r' /\ same_array r r'.
Proof. exact interp_order. Qed.
Print Assumptions C24_order.

(** An axis that the array does not have is refused. *)
Theorem C24_absent :
  forall (a x : sarr Qc) (ax : string), wf a -> ~ In ax (s_axes a) -> interp_linear a [(ax, x)] = Err KeyError.
Proof. exact (fun a x ax => interp_absent a ax x). Qed.
Print Assumptions C24_absent.

Open Scope string_scope.
Definition show (r : res (sarr Qc)) : option (shape * list Q) :=
  match r with Ok a => Some (sshape a, map this (ravel (s_nd a))) | Err _ => None end.
Definition qs (l : list Q) : list Qc := map Q2Qc l.
(* a[i, j]: 0 1 4 / 10 20 40 *)
Definition ex_a : sarr Qc := mkS (of_list (Q2Qc 0) [2; 3] (qs [0; 1; 4; 10; 20; 40]%Q)) ["x"; "y"].
Definition ex_y : sarr Qc := mkS (of_list (Q2Qc 0) [4] (qs [-1; 1#2; 2; 5#2]%Q)) ["w"].
Definition ex_x : sarr Qc := mkS (mkNd [] (fun _ => Q2Qc (1#4))) [].

Example C24_example_args :
  interp_args ex_a [("y", ex_y); ("x", ex_x)] [("w", 4)] /\ interp_args ex_a [("y", ex_y)] [("x", 2); ("w", 4)].
Proof.
  assert (W : wf ex_a) by (split; [repeat constructor; simpl; intuition discriminate|reflexivity]).
  split; (split; [exact W|]); (split; [repeat constructor; simpl; intuition discriminate|]);
    (split; [discriminate|]); (split; [|reflexivity]); intros ax x H; repeat (destruct H as [H|H]; [injection H as <- <-|]);
    try destruct H; (split; [split; [repeat constructor; simpl; intuition discriminate|reflexivity]|]).
  - exists 3. simpl. auto.
  - exists 2. simpl. auto.
  - exists 3. simpl. auto.
Qed.

Example C24_example_one :
  show (interp_linear ex_a [("y", ex_y)])
  = Some ([("x", 2); ("w", 4)], [-1; 1#2; 4; 11#2; 0; 15; 40; 50]%Q).
Proof. vm_compute. reflexivity. Qed.

Example C24_example_two :
  show (interp_linear ex_a [("y", ex_y); ("x", ex_x)]) = Some ([("w", 4)], [-3#4; 33#8; 13; 133#8]%Q) /\
  show (interp_linear ex_a [("x", ex_x); ("y", ex_y)]) = Some ([("w", 4)], [-3#4; 33#8; 13; 133#8]%Q).
Proof. split; vm_compute; reflexivity. Qed.

(** Outside of the hypotheses: along an axis of size 1 positions from 0 on give
    the element, negative positions raise IndexError. *)
Example C24_example_size_one :
  show (interp_linear (mkS (of_list (Q2Qc 0) [1] (qs [7]%Q)) ["x"]) [("x", ex_x)]) = Some ([], [7]%Q) /\
  interp_linear (mkS (of_list (Q2Qc 0) [1] (qs [7]%Q)) ["x"]) [("x", mkS (mkNd [] (fun _ => Q2Qc (-1))) [])] = Err IndexError.
Proof. split; vm_compute; reflexivity. Qed.
