(** C04: arrays made by any sequence of operations have pairwise distinct axis
    names, one for each dimension. *)
From Coq Require Import String List Arith ZArith Bool QArith Qcanon Lia.
From Verif Require Import Base Numpy Shapes Scalar Reorder Elementwise Reduce Along Sorting Derived History Spec SpecHistory HistoryFacts.
Import ListNotations.
Open Scope nat_scope.
Open Scope list_scope.

(** Programs of any length, starting without arrays, whatever numpy computes and
    whatever is written through views, exceptions being caught.  Missing from the
    full statement: the three calls that [checked] excludes, see below. *)
Theorem C04_histories_partial (V : Type) (truth : V -> bool) (int : V -> Z) (count : V -> nat) (of_int : Z -> V) (cs : list call) :
  Forall checked cs -> Forall named (run truth int count of_int cs []).
Proof. exact (run_wf truth int count of_int cs [] (Forall_nil _)). Qed.
Print Assumptions C04_histories_partial.

(** One call keeps the names of all arrays in order. *)
Theorem C04_step_partial (V : Type) (truth : V -> bool) (int : V -> Z) (count : V -> nat) (of_int : Z -> V) h c h' :
  Forall named h -> checked c -> step truth int count of_int h c = Ok h' -> Forall named h'.
Proof. exact (step_wf truth int count of_int h c h'). Qed.
Print Assumptions C04_step_partial.

(** The constructor accepts exactly the arrays that have one name for each
    dimension and raises ValueError for the others. *)
Theorem C04_constructor {A} (n : nd A) axes :
  ((exists a, mk_sarr n axes = Ok a) <-> NoDup axes /\ length axes = length (nshape n)) /\
  (~ (NoDup axes /\ length axes = length (nshape n)) -> mk_sarr n axes = Err ValueError).
Proof. exact (conj (mk_sarr_iff n axes) (mk_sarr_or_err n axes)). Qed.
Print Assumptions C04_constructor.

(** A reduction into an [out] that holds a Python number: the result is in order
    exactly if every axis is reduced. *)
Theorem C04_reduce_number {A B} i (f : list A -> B) (a : sarr A) axis w (o : sarr B) sh r :
  wf a -> (forall x, w = Some x -> op_wf x) -> s_axes o = [] -> na_reduce_number i f a axis false w o = Ok r ->
  broadcast_shapes (sshape a :: match w with Some w => op_shapes [w] | None => [] end) = Ok sh ->
  (named r <-> incl (dkeys sh) match axis with Some l => l | None => s_axes a end).
Proof. exact (reduce_number_wf i f a axis w o sh r). Qed.
Print Assumptions C04_reduce_number.

(** [copyto] when numpy raises a TypeError, for example because it refuses to cast
    the elements: the result is in order exactly if the two arrays have the same
    number of dimensions. *)
Theorem C04_copyto {A} (d : sarr A) s w r : wf d -> na_copyto false d s w = Ok r ->
  exists a, s = OpArr a /\ r = mkS (s_nd a) (s_axes d) /\ (named r <-> length (s_axes d) = length (nshape (s_nd a))).
Proof. exact (copyto_refused d s w r). Qed.
Print Assumptions C04_copyto.

(** ** Examples *)
Open Scope string_scope.

Definition go (cs : list call) : list (sarr Z) := run (fun z => Z.eqb z 1) (fun z => z) Z.to_nat (fun z => z) cs [].
Definition shows (h : list (sarr Z)) : list (list string * list nat) := map (fun a => (s_axes a, nshape (s_nd a))) h.
Definition zs (sh : list nat) : nd Z := mkNd sh (fun idx => Z.of_nat (ravel_idx sh idx)).
Definition sum (l : list Z) : Z := fold_right Z.add 0%Z l.

(** [np.sum(a, axis="x", out=na.ScalarArray(0))] leaves an array without names that
    has one dimension. *)
Theorem C04_reduce_number_refuted :
  exists cs : list (@call Z), length (filter (fun c => match c with ReduceNumber _ _ _ _ _ _ _ => true | _ => false end) cs) = 1 /\
    shows (go cs) = [(["x"; "y"], [2; 3]); ([], [3])] /\ ~ Forall named (go cs).
Proof.
  exists [New (zs [2; 3]) ["x"; "y"]; New (zs []) []; ReduceNumber true sum 0 (Some ["x"]) false None 1].
  split; [reflexivity|]. split; [vm_compute; reflexivity|]. intros F. rewrite Forall_forall in F.
  assert (In (nth 1 (go [New (zs [2; 3]) ["x"; "y"]; New (zs []) []; ReduceNumber true sum 0 (Some ["x"]) false None 1]) (mkS (zs []) []))
     (go [New (zs [2; 3]) ["x"; "y"]; New (zs []) []; ReduceNumber true sum 0 (Some ["x"]) false None 1])) as H by (vm_compute; auto).
  destruct (F _ H) as [_ L]. vm_compute in L. discriminate.
Qed.
Print Assumptions C04_reduce_number_refuted.

(** [np.copyto(integers, na.ScalarArray(1.5))] leaves an array with two names and no
    dimension. *)
Theorem C04_copyto_refuted :
  let cs := [New (zs [2; 3]) ["x"; "y"]; New (zs []) []; CopyTo false 0 (Made 1) (Num 1%Z)] in
  shows (go cs) = [(["x"; "y"], []); ([], [])] /\ ~ Forall named (go cs).
Proof.
  cbv zeta. split; [vm_compute; reflexivity|]. intros F. inversion F as [|x l [_ L] _ E]. subst. vm_compute in L. discriminate.
Qed.
Print Assumptions C04_copyto_refuted.

(** [ScalarArray.from_scalar_array] of an ndarray *)
Theorem C04_from_scalar_array_refuted :
  shows (go [FromScalar (inr (zs [3]))]) = [([], [3])] /\ ~ Forall named (go [FromScalar (inr (zs [3]))]).
Proof. split; [vm_compute; reflexivity|]. intros F. inversion F as [|x l [_ L] _ E]. subst. vm_compute in L. discriminate. Qed.
Print Assumptions C04_from_scalar_array_refuted.

(** A program that indexes, reduces, transposes, renames, stacks, concatenates,
    combines and broadcasts. *)
Definition ex_program : list (@call Z) :=
  [New (zs [2; 3]) ["x"; "y"]; GetItem 0 [("x", EBasic (ItInt 1))]; Reduce true sum 0 (Some ["y"]) false None None; Transpose 0 None;
   MoveAxis 0 ["x"] ["z"]; Stack [Made 0; Made 1; Num 7%Z] "t" None; Concatenate [Made 0; Made 3] "y" None; CombineAxes 5 (Some ["x"; "t"]) None;
   BroadcastTo 1 [("w", 2); ("y", 3)] false; Ufunc (fun _ => 0%Z) [sum] [Made 1; Made 2] None [None]; SetItem 0 [("y", EBasic (ItInt 0))] (Made 2);
   GetItem 0 [("x", EMade 11)]].
Example C04_example : Forall checked ex_program /\
  shows (go ex_program) =
  [(["x"; "y"], [2; 3]); (["y"], [3]); (["x"], [2]); (["y"; "x"], [3; 2]); (["z"; "y"], [2; 3]); (["t"; "x"; "y"], [3; 2; 3]);
   (["x"; "y"], [2; 6]); (["y"; "x*t"], [3; 6]); (["w"; "y"], [2; 3]); (["y"; "x"], [3; 2])].
Proof. split; [repeat constructor|vm_compute; reflexivity]. Qed.

(** Calls that would repeat a name raise. *)
Definition step1 (c : call) := match step (fun z => Z.eqb z 1) (fun z => z) Z.to_nat (fun z => z) (go [New (zs [2; 3]) ["x"; "y"]; New (zs [2]) ["y"]]) c with
  | Ok h => inl (shows h) | Err e => inr e end.
Example C04_clashes :
  step1 (MoveAxis 0 ["x"] ["y"]) = inr ValueError /\
  step1 (Stack [Made 0] "x" None) = inr ValueError /\
  step1 (Transpose 0 (Some ["x"; "y"; "x"])) = inr ValueError /\
  step1 (CombineAxes 0 (Some ["x"]) (Some "y")) = inr ValueError /\
  step1 (GetItem 0 [("x", EMade 1)]) = inr ValueError /\
  step1 (New (zs [2; 3]) ["x"]) = inr ValueError.
Proof. vm_compute. auto 10. Qed.
