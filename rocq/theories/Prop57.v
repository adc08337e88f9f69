(** C57: the cell volumes of a three-dimensional grid are signed volumes. *)
From Coq Require Import Ascii String List Arith ZArith QArith Qcanon Bool Lia.
From Verif Require Import Base Numpy Shapes Scalar Elementwise Vector Matrix Geometry Spec SpecDerived SpecVector SpecMatrix SpecGeometry MatrixLaws GeometryFacts VolumeFacts.
Import ListNotations.
Open Scope nat_scope.
Open Scope list_scope.

(** For components whose sizes are those of the grid: either every element is the
    signed volume enclosed by the triangulated surface of the cell, or the call
    raises IndexError because the scalar triple products of a family of triangles
    vanish for want of a common coordinate different from zero.  Missing: the call should never
    raise, and components with an axis of size one should be broadcast. *)
Theorem C57_volume_partial :
  forall (F : Type) (K : arith F), is_field K ->
  forall (ty : string) (x y z : operand F) (sh : shape) (a b c : string),
  op_wf x -> op_wf y -> op_wf z -> vec_shape (xyz ty x y z) = Ok sh ->
  sub_shape (op_shape x) sh -> sub_shape (op_shape y) sh -> sub_shape (op_shape z) sh ->
  In a (dkeys sh) -> In b (dkeys sh) -> In c (dkeys sh) -> a <> b -> b <> c -> c <> a ->
  (exists o, volume_cell_3d K (xyz ty x y z) (Some [a; b; c]) = Ok o /\ op_wf o /\
     sub_shape (op_shape o) (shrunk sh [a; b; c]) /\
     forall e, inside e (shrunk sh [a; b; c]) -> op_at o e = over K (enclosed K (point3 x y z) (surface a b c e)) (six_times K (one K))) \/
  (volume_cell_3d K (xyz ty x y z) (Some [a; b; c]) = Err IndexError /\
     exists a1 a2 a3 k, In (a1, a2, a3) (cyclic a b c) /\ k < 2 /\
       ~ spread K (shrunk sh [a1; a2]) (point3 x y z) (fun e => nth k (triangles a1 a2 e) (e, e, e))).
Proof. exact @volume_value. Qed.
Print Assumptions C57_volume_partial.

(** Without an axis argument the three axes of a three-dimensional array are taken;
    other arguments are refused. *)
Theorem C57_axis :
  forall (F : Type) (K : arith F) (v : vec F) (sh : shape), vec_shape v = Ok sh ->
  (length sh = 3 -> volume_cell_3d K v None = volume_cell_3d K v (Some (dkeys sh))) /\
  (length sh <> 3 -> volume_cell_3d K v None = Err ValueError) /\
  (forall l, (exists ax, In ax l /\ ~ In ax (dkeys sh)) \/ length l <> 3 -> volume_cell_3d K v (Some l) = Err ValueError).
Proof. exact @volume_axis. Qed.
Print Assumptions C57_axis.

(** That surface encloses the six tetrahedra between the near and the far corner,
    with their signs. *)
Theorem C57_tetrahedra :
  forall (F : Type) (K : arith F), is_field K ->
  forall (x y z : operand F) (a b c : string) (e : env), a <> b -> b <> c -> c <> a ->
  let P := point3 x y z in
  let far := P (next c (next b (next a e))) in
  enclosed K P (surface a b c e) =
  total K [tetrahedron K (P e) (P (next a e)) (P (next b (next a e))) far;
           tetrahedron K (P e) (P (next b e)) (P (next c (next b e))) far;
           tetrahedron K (P e) (P (next c e)) (P (next c (next a e))) far;
           neg K (tetrahedron K (P e) (P (next b e)) (P (next b (next a e))) far);
           neg K (tetrahedron K (P e) (P (next c e)) (P (next c (next b e))) far);
           neg K (tetrahedron K (P e) (P (next a e)) (P (next c (next a e))) far)].
Proof. exact @volume_tetrahedra. Qed.
Print Assumptions C57_tetrahedra.

(** Whenever volumes are returned: translations change nothing, *)
Theorem C57_translation_partial :
  forall (F : Type) (K : arith F), is_field K ->
  forall (ty ty' : string) (x y z x' y' z' : operand F) (sh : shape) (a b c : string) (o o' : operand F),
  Forall op_wf [x; y; z; x'; y'; z'] -> vec_shape (xyz ty x y z) = Ok sh -> vec_shape (xyz ty' x' y' z') = Ok sh ->
  Forall (fun o => sub_shape (op_shape o) sh) [x; y; z; x'; y'; z'] ->
  In a (dkeys sh) -> In b (dkeys sh) -> In c (dkeys sh) -> a <> b -> b <> c -> c <> a ->
  volume_cell_3d K (xyz ty x y z) (Some [a; b; c]) = Ok o -> volume_cell_3d K (xyz ty' x' y' z') (Some [a; b; c]) = Ok o' ->
  forall t : env -> F * F * F,
  (forall e, t (next a e) = t e) -> (forall e, t (next b e) = t e) -> (forall e, t (next c e) = t e) ->
  (forall e, inside e sh -> point3 x' y' z' e = add3 K (point3 x y z e) (t e)) ->
  forall e, inside e (shrunk sh [a; b; c]) -> op_at o' e = op_at o e.
Proof.
  intros F K FK ty ty' x y z x' y' z' sh a b c o o' W Sh Sh' S Ha Hb Hc D1 D2 D3 E E' t.
  exact (volume_translation K FK ty ty' x y z x' y' z' sh a b c o o' W Sh Sh' S Ha Hb Hc D1 D2 D3 E E' t).
Qed.
Print Assumptions C57_translation_partial.

(** a linear map multiplies the volumes by its determinant, *)
Theorem C57_linear_partial :
  forall (F : Type) (K : arith F), is_field K ->
  forall (ty ty' : string) (x y z x' y' z' : operand F) (sh : shape) (a b c : string) (o o' : operand F),
  Forall op_wf [x; y; z; x'; y'; z'] -> vec_shape (xyz ty x y z) = Ok sh -> vec_shape (xyz ty' x' y' z') = Ok sh ->
  Forall (fun o => sub_shape (op_shape o) sh) [x; y; z; x'; y'; z'] ->
  In a (dkeys sh) -> In b (dkeys sh) -> In c (dkeys sh) -> a <> b -> b <> c -> c <> a ->
  volume_cell_3d K (xyz ty x y z) (Some [a; b; c]) = Ok o -> volume_cell_3d K (xyz ty' x' y' z') (Some [a; b; c]) = Ok o' ->
  forall u v w : F * F * F,
  (forall e, inside e sh -> point3 x' y' z' e = linear3 K u v w (point3 x y z e)) ->
  forall e, inside e (shrunk sh [a; b; c]) -> op_at o' e = times K (det K u v w) (op_at o e).
Proof.
  intros F K FK ty ty' x y z x' y' z' sh a b c o o' W Sh Sh' S Ha Hb Hc D1 D2 D3 E E' u v w.
  exact (volume_linear K FK ty ty' x y z x' y' z' sh a b c o o' W Sh Sh' S Ha Hb Hc D1 D2 D3 E E' u v w).
Qed.
Print Assumptions C57_linear_partial.

(** a parallelepiped has the determinant of its edges as its volume, *)
Theorem C57_parallelepiped_partial :
  forall (F : Type) (K : arith F), is_field K ->
  forall (ty : string) (x y z : operand F) (sh : shape) (a b c : string) (o : operand F),
  Forall op_wf [x; y; z] -> vec_shape (xyz ty x y z) = Ok sh -> Forall (fun o => sub_shape (op_shape o) sh) [x; y; z] ->
  In a (dkeys sh) -> In b (dkeys sh) -> In c (dkeys sh) -> a <> b -> b <> c -> c <> a ->
  volume_cell_3d K (xyz ty x y z) (Some [a; b; c]) = Ok o -> six_times K (one K) <> zero K ->
  forall (e : env) (u v w : F * F * F), inside e (shrunk sh [a; b; c]) ->
  let P := point3 x y z in
  (forall e', In e' [e; next b e; next c e; next c (next b e)] -> P (next a e') = add3 K (P e') u) ->
  (forall e', In e' [e; next c e] -> P (next b e') = add3 K (P e') v) -> P (next c e) = add3 K (P e) w ->
  op_at o e = det K u v w.
Proof. exact @volume_parallelepiped. Qed.
Print Assumptions C57_parallelepiped_partial.

(** and the volumes of the cells of a grid sum to the volume enclosed by the
    surface of the grid. *)
Theorem C57_grid_partial :
  forall (F : Type) (K : arith F), is_field K ->
  forall (ty : string) (x y z : operand F) (sh : shape) (a b c : string) (o : operand F),
  Forall op_wf [x; y; z] -> vec_shape (xyz ty x y z) = Ok sh -> Forall (fun o => sub_shape (op_shape o) sh) [x; y; z] ->
  forall n m l : nat, In (a, S n) sh -> In (b, S m) sh -> In (c, S l) sh -> a <> b -> b <> c -> c <> a ->
  volume_cell_3d K (xyz ty x y z) (Some [a; b; c]) = Ok o ->
  forall e, inside_but e sh [a; b; c] ->
  sum_to K n (fun i => sum_to K m (fun j => sum_to K l (fun k => op_at o (set_env (set_env (set_env e a i) b j) c k)))) =
  over K (enclosed K (point3 x y z) (grid_surface a b c n m l e)) (six_times K (one K)).
Proof. exact @volume_grid. Qed.
Print Assumptions C57_grid_partial.

Open Scope string_scope.

Definition q (z : Z) : Qc := Q2Qc (inject_Z z).
Definition block (axes : list string) (sizes : list nat) (l : list Z) : operand Qc := OpArr (mkS (of_list (Q2Qc 0) sizes (map q l)) axes).
Definition shows (r : res (operand Qc)) : option (shape * list Q) :=
  match r with
  | Ok (OpArr a) => Some (sshape a, map this (ravel (s_nd a)))
  | Ok (OpNum x) => Some ([], [this x])
  | Err _ => None
  end.

(** A grid that is flat in one direction has cells of volume zero, and the call
    raises. *)
Definition flat_x : operand Qc := block ["i"] [2] [0; 1]%Z.
Definition flat_y : operand Qc := block ["j"] [2] [0; 1]%Z.
Definition flat_z : operand Qc := block ["k"] [2] [0; 0]%Z.

Theorem C57_flat_refuted :
  exists x y z sh, op_wf x /\ op_wf y /\ op_wf z /\ vec_shape (xyz "v" x y z) = Ok sh /\
    sub_shape (op_shape x) sh /\ sub_shape (op_shape y) sh /\ sub_shape (op_shape z) sh /\
    dkeys sh = ["i"; "j"; "k"] /\
    volume_cell_3d qK (xyz "v" x y z) None = Err IndexError /\
    forall e, inside e (shrunk sh ["i"; "j"; "k"]) ->
      over qK (enclosed qK (point3 x y z) (surface "i" "j" "k" e)) (six_times qK (one qK)) = zero qK.
Proof.
  exists flat_x, flat_y, flat_z, [("i", 2); ("j", 2); ("k", 2)].
  split; [repeat constructor; simpl; intuition discriminate|]. split; [repeat constructor; simpl; intuition discriminate|].
  split; [repeat constructor; simpl; intuition discriminate|]. split; [reflexivity|].
  split; [intros ax n H; simpl in *; tauto|]. split; [intros ax n H; simpl in *; tauto|]. split; [intros ax n H; simpl in *; tauto|].
  split; [reflexivity|]. split; [vm_compute; reflexivity|].
  intros e I.
  assert (Q : forall e', op_at flat_z e' = zero qK).
  { intros e'. cbn [op_at flat_z block]. unfold bat, at_, bclamp. cbn. rewrite Nat.mul_1_r, Nat.add_0_r. destruct (e' "k") as [|[|[|n]]]; reflexivity. }
  assert (D : forall p p1 p2 : Qc * Qc * Qc, snd p = zero qK -> snd p1 = zero qK -> snd p2 = zero qK -> det qK p p1 p2 = zero qK).
  { intros [[p1 p2] p3] [[r1 r2] r3] [[s1 s2] s3] H1 H2 H3. simpl in *. subst. ring. }
  assert (E : forall l, enclosed qK (point3 flat_x flat_y flat_z) l = zero qK).
  { unfold enclosed. induction l as [|[[p1 p2] p3] l IH]; [reflexivity|]. cbn [map total fold_right].
    rewrite (D (point3 flat_x flat_y flat_z p1)) by apply Q. unfold total in IH. rewrite IH. apply Qc_is_canon. reflexivity. }
  rewrite E. apply Qc_is_canon. reflexivity.
Qed.
Print Assumptions C57_flat_refuted.

(** A component with an axis of size one is not broadcast: the unit cube raises
    IndexError, and a longer grid raises ValueError. *)
Theorem C57_size_one_refuted :
  exists x y z, op_wf x /\ op_wf y /\ op_wf z /\ vec_shape (xyz "v" x y z) = Ok [("i", 2); ("j", 2); ("k", 2)] /\
    volume_cell_3d qK (xyz "v" x y z) None = Err IndexError /\
    exists x', op_wf x' /\ vec_shape (xyz "v" x' y z) = Ok [("i", 3); ("j", 2); ("k", 2)] /\
      volume_cell_3d qK (xyz "v" x' y z) None = Err ValueError.
Proof.
  exists (block ["i"] [2] [0; 1]%Z), (block ["i"; "j"] [1; 2] [0; 1]%Z), (block ["k"] [2] [0; 1]%Z).
  split; [repeat constructor; simpl; intuition discriminate|]. split; [repeat constructor; simpl; intuition discriminate|].
  split; [repeat constructor; simpl; intuition discriminate|]. split; [vm_compute; reflexivity|]. split; [vm_compute; reflexivity|].
  exists (block ["i"] [3] [0; 1; 2]%Z). split; [repeat constructor; simpl; intuition discriminate|].
  split; vm_compute; reflexivity.
Qed.
Print Assumptions C57_size_one_refuted.

(** the unit cube and a grid of two cells that do not start at the origin *)
Example ex_cube : shows (volume_cell_3d qK (xyz "v" flat_x flat_y (block ["k"] [2] [0; 1]%Z)) None) = Some ([("k", 1); ("i", 1); ("j", 1)], [1%Q]).
Proof. vm_compute. reflexivity. Qed.

Definition ex_x : operand Qc := block ["i"; "k"] [3; 2] [1; 2; 3; 5; 7; 8]%Z.
Definition ex_y : operand Qc := block ["j"; "i"] [2; 3] [1; 1; 2; 3; 4; 4]%Z.
Definition ex_z : operand Qc := block ["k"] [2] [2; 5]%Z.

Example ex_volume : shows (volume_cell_3d qK (xyz "v" ex_x ex_y ex_z) (Some ["i"; "j"; "k"])) =
  Some ([("i", 2); ("k", 1); ("j", 1)], [37 # 2; 26]%Q).
Proof. vm_compute. reflexivity. Qed.

Example ex_total : this (over qK (enclosed qK (point3 ex_x ex_y ex_z) (grid_surface "i" "j" "k" 2 1 1 (fun _ => 0))) (six_times qK (one qK))) = (89 # 2)%Q.
Proof. vm_compute. reflexivity. Qed.

Example ex_hyps : let sh := [("i", 3); ("k", 2); ("j", 2)] in
  vec_shape (xyz "v" ex_x ex_y ex_z) = Ok sh /\ Forall op_wf [ex_x; ex_y; ex_z] /\ Forall (fun o => sub_shape (op_shape o) sh) [ex_x; ex_y; ex_z] /\
  six_times qK (one qK) <> zero qK.
Proof.
  split; [reflexivity|]. split; [repeat constructor; simpl; intuition discriminate|]. split; [|discriminate].
  repeat apply Forall_cons; try apply Forall_nil; intros ax n H; simpl in *; tauto.
Qed.
