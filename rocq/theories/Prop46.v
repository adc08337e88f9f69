(** C46: assignment accepts what indexing accepts (violated by the code). *)
From Coq Require Import String List Arith ZArith Bool Lia Sorted.
From Verif Require Import Base Numpy Shapes Scalar Spec.
Import ListNotations.
Open Scope nat_scope.
Open Scope list_scope.

Open Scope string_scope.
Definition ex_a : sarr Z := mkS (of_list 0%Z [2; 3] [0; 1; 2; 10; 11; 12]%Z) ["x"; "y"].

(** With a numpy integer instead of a Python integer (for example an index taken
    from a numpy array) indexing works and selects the same elements, but
    assigning a value that fits the selection raises. *)
Theorem C46_numpy_integer_refuted :
  exists (a : sarr Z) (z : Z) (v s : sarr Z),
    wf a /\ wf v /\
    getitem a [("y", ItNpInt z)] = Ok s /\ fits_in (sshape v) (sshape s) /\
    (exists r, setitem a [("y", ItInt z)] (OpArr v) = Ok r) /\
    setitem a [("y", ItNpInt z)] (OpArr v) = Err ValueError.
Proof.
  exists ex_a, 0%Z, (mkS (of_list 0%Z [2] [5; 6]%Z) ["x"]). eexists.
  split; [split; [repeat constructor; simpl; intuition discriminate|reflexivity]|].
  split; [split; [repeat constructor; simpl; intuition discriminate|reflexivity]|].
  split; [reflexivity|]. split.
  - intros ax n [E|[]]. injection E as <- <-. exists 2. split; [left; reflexivity|auto].
  - split; [eexists; reflexivity|reflexivity].
Qed.
Print Assumptions C46_numpy_integer_refuted.

(** When an index array uses the name of an axis that is kept, indexing raises
    but assignment goes through (and writes the outer product of positions). *)
Theorem C46_name_clash_refuted :
  exists (a : sarr Z) (it : dict item) (r : sarr Z),
    wf a /\ getitem a it = Err ValueError /\ setitem a it (OpNum 5%Z) = Ok r /\
    ravel (s_nd a) <> ravel (s_nd r).
Proof.
  exists ex_a, [("x", ItArr (mkS (of_list 0%Z [3] [0; 0; 0]%Z) ["y"]))]. eexists.
  split; [split; [repeat constructor; simpl; intuition discriminate|reflexivity]|].
  split; [reflexivity|]. split; [reflexivity|]. vm_compute. discriminate.
Qed.
Print Assumptions C46_name_clash_refuted.
