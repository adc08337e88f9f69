(** C43: unravel_index inverts row-major flattening. *)
From Coq Require Import String List Arith ZArith Bool Lia Sorted.
From Verif Require Import Base Numpy Shapes Scalar Reorder Spec ReorderFacts.
Import ListNotations.
Open Scope nat_scope.
Open Scope list_scope.

(** [np.unravel_index(a, shape)] works exactly when every element is in range
    (numpy also refuses an array of indices for the shape without axes). *)
Theorem C43_unravel_index_success :
  forall (a : sarr Z) (sh : shape),
  wf a -> NoDup (dkeys sh) ->
  ((exists r, na_unravel_index a sh = Ok r) <->
   (sh = [] -> s_axes a = []) /\
   forall e, inside e (sshape a) -> (0 <= at_ a e < Z.of_nat (total_size sh (dkeys sh)))%Z).
Proof. exact unravel_index_success. Qed.
Print Assumptions C43_unravel_index_success.

(** One array for each axis, shaped like [a], whose elements are in bounds and
    together have the row-major position given by [a]. *)
Theorem C43_unravel_index :
  forall (a : sarr Z) (sh : shape) (r : dict (sarr Z)),
  wf a -> NoDup (dkeys sh) -> na_unravel_index a sh = Ok r ->
  dkeys r = dkeys sh /\
  (forall ax v, dget r ax = Some v -> wf v /\ sshape v = sshape a) /\
  forall e, inside e (sshape a) ->
    exists idx : list nat,
      Forall2 (fun kv i => i < snd kv /\ exists v, dget r (fst kv) = Some v /\ at_ v e = Z.of_nat i) sh idx /\
      Z.of_nat (row_major (dvals sh) idx) = at_ a e.
Proof. exact unravel_index_spec. Qed.
Print Assumptions C43_unravel_index.

Open Scope string_scope.
Definition ex_i : sarr Z := mkS (of_list 0%Z [3] [0; 4; 5]%Z) ["w"].

Example C43_example :
  wf ex_i /\
  exists r, na_unravel_index ex_i [("x", 2); ("y", 3)] = Ok r /\
    map (fun kv => (fst kv, ravel (s_nd (snd kv)))) r = [("x", [0; 1; 1]%Z); ("y", [0; 1; 2]%Z)].
Proof.
  split; [split; [repeat constructor; simpl; intuition discriminate|reflexivity]|].
  eexists; repeat split.
Qed.

Example C43_example_fail :
  na_unravel_index (mkS (of_list 0%Z [3] [0; 4; 6]%Z) ["w"]) [("x", 2); ("y", 3)] = Err ValueError.
Proof. reflexivity. Qed.
