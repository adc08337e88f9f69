(** C13: np.moveaxis renames axes. *)
From Coq Require Import String List Arith ZArith Bool Lia Sorted.
From Verif Require Import Base Numpy Shapes Scalar Reorder Spec ReorderFacts.
Import ListNotations.
Open Scope nat_scope.
Open Scope list_scope.

(** Partial: the renaming is carried out one name at a time, so it is only the
    simultaneous renaming when no new name is the old name of a later pair. *)
Theorem C13_moveaxis_partial :
  forall (A : Type) (a : sarr A) (source destination : list string),
  wf a -> NoDup source -> length source = length destination -> incl source (s_axes a) ->
  ForallOrdPairs (fun p q => snd p <> fst q) (combine source destination) ->
  let rho := rename (combine source destination) in
  (NoDup (map rho (s_axes a)) ->
   exists r, na_moveaxis a source destination = Ok r /\ wf r /\
     s_axes r = map rho (s_axes a) /\
     sshape r = map (fun kv => (rho (fst kv), snd kv)) (sshape a) /\
     forall e, at_ r e = at_ a (fun ax => e (rho ax))) /\
  (~ NoDup (map rho (s_axes a)) -> na_moveaxis a source destination = Err ValueError).
Proof. exact @moveaxis_spec. Qed.
Print Assumptions C13_moveaxis_partial.

Theorem C13_moveaxis_missing :
  forall (A : Type) (a : sarr A) (source destination : list string),
  ~ incl source (s_axes a) -> na_moveaxis a source destination = Err ValueError.
Proof. exact @moveaxis_missing. Qed.
Print Assumptions C13_moveaxis_missing.

Open Scope string_scope.
Definition ex_a : sarr Z := mkS (of_list 0%Z [2; 3] [0; 1; 2; 10; 11; 12]%Z) ["x"; "y"].
Definition ex_b : sarr Z := mkS (of_list 0%Z [3; 2] [0; 10; 1; 11; 2; 12]%Z) ["y"; "x"].

Lemma ex_a_wf : wf ex_a.
Proof. split; [repeat constructor; simpl; intuition discriminate|reflexivity]. Qed.
Lemma ex_b_wf : wf ex_b.
Proof. split; [repeat constructor; simpl; intuition discriminate|reflexivity]. Qed.

Example C13_example :
  ForallOrdPairs (fun p q => snd p <> fst q) (combine ["y"; "x"] ["z"; "y"]) /\
  exists r, na_moveaxis ex_a ["y"; "x"] ["z"; "y"] = Ok r /\ sshape r = [("y", 2); ("z", 3)].
Proof.
  split; [|eexists; split; reflexivity].
  repeat constructor. simpl. discriminate.
Qed.

(** Exchanging two names silently returns the array unchanged. *)
Theorem C13_exchange_refuted :
  exists (a : sarr Z) (source destination : list string),
    wf a /\ NoDup source /\ length source = length destination /\ incl source (s_axes a) /\
    NoDup (map (rename (combine source destination)) (s_axes a)) /\
    na_moveaxis a source destination = Ok a /\
    map (rename (combine source destination)) (s_axes a) <> s_axes a.
Proof.
  exists ex_a, ["x"; "y"], ["y"; "x"].
  split; [exact ex_a_wf|]. split; [repeat constructor; simpl; intuition discriminate|].
  split; [reflexivity|]. split; [intros x Hx; exact Hx|].
  split; [repeat constructor; simpl; intuition discriminate|].
  split; [reflexivity|]. simpl. discriminate.
Qed.
Print Assumptions C13_exchange_refuted.

(** For a chain of renamings the result depends on the storage order of the
    axes: two arrays with the same labelled contents give different results. *)
Theorem C13_storage_order_refuted :
  exists (a b : sarr Z) (source destination : list string) (r s : sarr Z),
    wf a /\ wf b /\ same_shape (sshape a) (sshape b) /\ (forall x y, at_ a (fun ax => if String.eqb ax "x" then x else y)
       = at_ b (fun ax => if String.eqb ax "x" then x else y) \/ 1 < x \/ 2 < y) /\
    na_moveaxis a source destination = Ok r /\ na_moveaxis b source destination = Ok s /\
    ~ same_shape (sshape r) (sshape s).
Proof.
  exists ex_a, ex_b, ["x"; "y"], ["y"; "z"]. do 2 eexists.
  split; [exact ex_a_wf|]. split; [exact ex_b_wf|].
  split.
  { intros ax n. simpl. split; intros [H|[H|[]]]; injection H as <- <-; auto. }
  split.
  { intros x y. destruct x as [|[|x]]; [| |right; left; lia];
    (destruct y as [|[|[|y]]]; [| | |right; right; lia]); left; reflexivity. }
  split; [reflexivity|]. split; [reflexivity|].
  intros H. specialize (H "y" 3). simpl in H. destruct H as [H _].
  assert (K : ("y", 3) = ("z", 3) \/ ("y", 3) = ("y", 2) \/ False).
  { destruct H as [H|[H|[]]]; [right; left; reflexivity| |]; [left|right; left]; symmetry; assumption. }
  destruct K as [K|[K|[]]]; discriminate.
Qed.
Print Assumptions C13_storage_order_refuted.
