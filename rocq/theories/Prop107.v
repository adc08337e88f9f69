(** C107: [np.unravel_index] takes the uncertain positions of every world apart. *)
From Coq Require Import String List Arith ZArith Bool Lia.
From Verif Require Import Base Numpy Shapes Scalar Elementwise Uncertain UncertainUnravel
  Spec SpecUncertain UncertainUnravelFacts.
Import ListNotations.
Open Scope nat_scope.
Open Scope list_scope.

(** For a shape with axes: if the positions of every world are in range, the result has one
    uncertain scalar for each axis, stored like the indices, and in every world these are in bounds and together have the
    row-major position that the indices have in that world; otherwise the call is refused. *)
Theorem C107_unravel_index :
  forall (u : unc Z) sh,
  u_wf u -> NoDup (dkeys sh) -> sh <> [] ->
  let valid := forall w e, u_inside u w e -> (0 <= u_at (Uncertain u) w e < Z.of_nat (total_size sh (dkeys sh)))%Z in
  (valid -> exists d, u_unravel_index u sh = Ok d /\ dkeys d = dkeys sh /\
     (forall ax v, dget d ax = Some v -> u_wf v /\ op_shape (u_nominal v) = op_shape (u_nominal u) /\ op_shape (u_distribution v) = op_shape (u_distribution u)) /\
     forall w e, u_inside u w e -> exists idx : list nat,
       Forall2 (fun kv i => i < snd kv /\ exists v, dget d (fst kv) = Some v /\ u_at (Uncertain v) w e = Z.of_nat i) sh idx /\
       Z.of_nat (row_major (dvals sh) idx) = u_at (Uncertain u) w e) /\
  (~ valid -> u_unravel_index u sh = Err ValueError).
Proof. exact @u_unravel_spec. Qed.
Print Assumptions C107_unravel_index.

(** A shape without axes gives nothing, whatever the positions are. *)
Theorem C107_no_axes :
  forall (u : unc Z),
  u_unravel_index u [] = Ok [].
Proof. exact @u_unravel_empty. Qed.
Print Assumptions C107_no_axes.

Open Scope string_scope.

Definition arr (l : list Z) (s : list nat) (axes : list string) : operand Z := OpArr (mkS (of_list 0%Z s l) axes).
Definition ex_s : shape := [("x", 2); ("y", 3)].

(** a nominal position for all [w]; two samples for every [w] *)
Definition ex_u : unc Z := mkU (OpNum 4%Z) (arr [0; 4; 5; 3]%Z [2; 2] ["_distribution"; "w"]).
(** one sample is out of range *)
Definition ex_b : unc Z := mkU (OpNum 4%Z) (arr [0; 6]%Z [2] ["_distribution"]).

Example C107_applies : u_wf ex_u /\ NoDup (dkeys ex_s) /\ ex_s <> [] /\
  (forall w e, u_inside ex_u w e -> (0 <= u_at (Uncertain ex_u) w e < Z.of_nat (total_size ex_s (dkeys ex_s)))%Z) /\
  u_inside ex_u (Some 1) (fun _ => 1) /\ u_wf ex_b /\
  ~ (forall w e, u_inside ex_b w e -> (0 <= u_at (Uncertain ex_b) w e < Z.of_nat (total_size ex_s (dkeys ex_s)))%Z).
Proof.
  split. { split; [exact I|]. split; [split; [repeat constructor; cbn; intuition discriminate|reflexivity]|]. intros []. }
  split; [repeat constructor; cbn; intuition discriminate|]. split; [discriminate|]. split.
  { intros [k|] e H; [|cbn; lia]. assert (H1 := H "_distribution" 2 (or_introl eq_refl)). assert (H2 := H "w" 2 (or_intror (or_introl eq_refl))).
    unfold set_env in H1, H2. cbn in H1, H2. cbn -[Z.lt Z.le]. unfold set_env. cbn -[Z.lt Z.le].
    destruct k as [|[|k]]; [| |lia]; (destruct (e "w") as [|[|j]]; [| |lia]); cbn; lia. }
  split. { intros ax n [H|[H|[]]]; injection H as <- <-; cbn; lia. }
  split. { split; [exact I|]. split; [split; [repeat constructor; cbn; intuition discriminate|reflexivity]|]. intros []. }
  intros H. assert (K : u_inside ex_b (Some 1) (fun _ => 0)). { intros ax n [E|[]]; injection E as <- <-; cbn; lia. }
  specialize (H _ _ K). cbn in H. lia.
Qed.

Definition show1 {A} (u : unc A) :=
  let f o := (sshape (normalize o), ravel (s_nd (normalize o))) in (f (u_nominal u), f (u_distribution u)).
Definition show (r : res (dict (unc Z))) := match r with Ok d => Ok (map (fun kv => (fst kv, show1 (snd kv))) d) | Err e => Err e end.

(** the positions of the worlds are taken apart separately *)
Example C107_example :
  show (u_unravel_index ex_u ex_s) = Ok [("x", ([], [1%Z], ([("_distribution", 2); ("w", 2)], [0%Z; 1%Z; 1%Z; 1%Z]))); ("y", ([], [1%Z], ([("_distribution", 2); ("w", 2)], [0%Z; 1%Z; 2%Z; 0%Z])))].
Proof. reflexivity. Qed.

(** a sample out of range; a negative nominal value; a shape without elements *)
Example C107_example_refusals :
  u_unravel_index ex_b ex_s = Err ValueError /\ u_unravel_index (mkU (OpNum (-1)%Z) (OpNum 0%Z)) ex_s = Err ValueError /\
  u_unravel_index ex_u [("x", 0)] = Err ValueError /\ u_unravel_index ex_b [] = Ok [].
Proof. repeat split; reflexivity. Qed.
