(** C69: function arrays in other orders and shapes. *)
From Coq Require Import String List Arith ZArith Bool Lia.
From Verif Require Import Base BaseFacts Numpy Shapes Scalar Reorder Along Func FuncOps Spec SpecDerived SpecNumeric SpecFuncOps FuncShapeFacts.
Import ListNotations.
Open Scope nat_scope.
Open Scope list_scope.

(** [broadcasted]: both parts have all axes of the function, the inputs with one
    more element along axes of bins. *)
Theorem C69_broadcasted :
  forall (A B : Type) (f : farr A B) (sh : shape),
  wf (f_inputs f) -> wf (f_outputs f) -> compatible f -> f_shape f = Ok sh ->
  exists r, f_broadcasted f = Ok r /\ wf (f_inputs r) /\ wf (f_outputs r) /\ sshape (f_outputs r) = sh /\
    sshape (f_inputs r) = map (fun kv => (fst kv, if binned f (fst kv) then S (snd kv) else snd kv)) sh /\
    (forall e, at_ (f_inputs r) e = bat (f_inputs f) e) /\ forall e, at_ (f_outputs r) e = bat (f_outputs f) e.
Proof. exact @f_broadcasted_spec. Qed.
Print Assumptions C69_broadcasted.

(** [np.transpose] stores both parts in the order given and changes no element;
    all axes must be given, further ones are added with one element.  Without an
    order it is the reverse of the shape with the axes of bins last. *)
Theorem C69_transpose :
  forall (A B : Type) (f : farr A B) (sh : shape) (axes : list string),
  wf (f_inputs f) -> wf (f_outputs f) -> compatible f -> f_shape f = Ok sh ->
  (NoDup axes -> incl (dkeys sh) axes ->
   exists r, f_transpose f (Some axes) = Ok r /\ wf (f_inputs r) /\ wf (f_outputs r) /\
     s_axes (f_inputs r) = axes /\ s_axes (f_outputs r) = axes /\
     (forall ax n, In (ax, n) (sshape (f_outputs r)) <-> In (ax, n) sh \/ (~ In ax (dkeys sh) /\ In ax axes /\ n = 1)) /\
     (forall ax n, In (ax, n) (sshape (f_inputs r)) <->
        (exists m, In (ax, m) sh /\ n = if binned f ax then S m else m) \/ (~ In ax (dkeys sh) /\ In ax axes /\ n = 1)) /\
     (forall e, at_ (f_inputs r) e = bat (f_inputs f) e) /\ forall e, at_ (f_outputs r) e = bat (f_outputs f) e) /\
  (~ (NoDup axes /\ incl (dkeys sh) axes) -> f_transpose f (Some axes) = Err ValueError) /\
  f_transpose f None = f_transpose f (Some (rev (centers_first f (dkeys sh)))).
Proof. exact @f_transpose_spec. Qed.
Print Assumptions C69_transpose.

(** [np.reshape] of a scalar array keeps the elements in their order. *)
Theorem C69_reshape_scalar :
  forall (A : Type) (a : sarr A) (new : shape), wf a -> NoDup (dkeys new) ->
  (total_size new (dkeys new) = total_size (sshape a) (s_axes a) ->
   exists r, na_reshape a new = Ok r /\ wf r /\ sshape r = new /\
     forall e, map (at_ r) (fibre new (dkeys new) e) = map (at_ a) (fibre (sshape a) (s_axes a) e)) /\
  (total_size new (dkeys new) <> total_size (sshape a) (s_axes a) -> na_reshape a new = Err ValueError).
Proof. exact @reshape_spec. Qed.
Print Assumptions C69_reshape_scalar.

(** [np.reshape] of a function keeps every output with its input, in the order of
    the points of the function. *)
Theorem C69_reshape :
  forall (A B : Type) (f : farr A B) (sh new : shape),
  wf (f_inputs f) -> wf (f_outputs f) -> compatible f -> f_shape f = Ok sh -> NoDup (dkeys new) ->
  ((exists ax, binned f ax = true) -> f_reshape f new = Err ValueError) /\
  ((forall ax, binned f ax = false) -> total_size new (dkeys new) <> total_size sh (dkeys sh) -> f_reshape f new = Err ValueError) /\
  ((forall ax, binned f ax = false) -> total_size new (dkeys new) = total_size sh (dkeys sh) ->
   exists r, f_reshape f new = Ok r /\ wf (f_inputs r) /\ wf (f_outputs r) /\
     sshape (f_inputs r) = new /\ sshape (f_outputs r) = new /\
     forall e, map (fun p => (at_ (f_inputs r) p, at_ (f_outputs r) p)) (fibre new (dkeys new) e) =
               map (fun p => (bat (f_inputs f) p, bat (f_outputs f) p)) (fibre sh (dkeys sh) e)).
Proof. exact @f_reshape_spec. Qed.
Print Assumptions C69_reshape.

(** [np.repeat] repeats inputs and outputs alike, and refuses axes of bins. *)
Theorem C69_repeat :
  forall (A B : Type) (f : farr A B) (sh : shape) (repeats : operand nat) (x : string),
  wf (f_inputs f) -> wf (f_outputs f) -> compatible f -> f_shape f = Ok sh -> op_wf repeats ->
  let n := size_of sh x in
  let ok := In x (dkeys sh) /\ binned f x = false /\
    (op_shape repeats = [] \/ exists ax m, op_shape repeats = [(ax, m)] /\ (m = 1 \/ m = n)) in
  (ok -> exists r, f_repeat f repeats x = Ok r /\ wf (f_inputs r) /\ wf (f_outputs r) /\
     s_axes (f_inputs r) = dkeys sh /\ s_axes (f_outputs r) = dkeys sh /\
     (forall y, In y (dkeys sh) -> y <> x -> size_of (sshape (f_outputs r)) y = size_of sh y /\
        size_of (sshape (f_inputs r)) y = if binned f y then S (size_of sh y) else size_of sh y) /\
     (forall e, line (f_inputs r) x e = expand (map (fun j => op_at repeats (fun _ => j)) (seq 0 n))
                                               (map (fun j => bat (f_inputs f) (set_env e x j)) (seq 0 n))) /\
     forall e, line (f_outputs r) x e = expand (map (fun j => op_at repeats (fun _ => j)) (seq 0 n))
                                               (map (fun j => bat (f_outputs f) (set_env e x j)) (seq 0 n))) /\
  (~ ok -> f_repeat f repeats x = Err ValueError).
Proof. exact @f_repeat_spec. Qed.
Print Assumptions C69_repeat.

Open Scope string_scope.

Definition arr (sh : list nat) (axes : list string) (l : list Z) : sarr Z := mkS (of_list 0%Z sh l) axes.
Definition show (r : res (farr Z Z)) :=
  match r with
  | Ok f => Ok (sshape (f_inputs f), ravel (s_nd (f_inputs f)), sshape (f_outputs f), ravel (s_nd (f_outputs f)))
  | Err e => Err e
  end.

(** bins along [x], samples along [t], which only the inputs have *)
Definition ex_bins : farr Z Z := mkF (arr [2; 3] ["t"; "x"] [0; 1; 3;  10; 11; 13]%Z) (arr [2] ["x"] [5; 7]%Z).

Example C69_bins :
  wf (f_inputs ex_bins) /\ wf (f_outputs ex_bins) /\ compatible ex_bins /\ f_shape ex_bins = Ok [("x", 2); ("t", 2)] /\
  show (f_broadcasted ex_bins) = Ok ([("x", 3); ("t", 2)], [0; 10; 1; 11; 3; 13]%Z, [("x", 2); ("t", 2)], [5; 5; 7; 7]%Z) /\
  show (f_transpose ex_bins (Some ["t"; "u"; "x"]))
  = Ok ([("t", 2); ("u", 1); ("x", 3)], [0; 1; 3; 10; 11; 13]%Z, [("t", 2); ("u", 1); ("x", 2)], [5; 7; 5; 7]%Z) /\
  f_transpose ex_bins (Some ["t"]) = Err ValueError /\
  show (f_repeat ex_bins (OpArr (mkS (of_list 0 [2] [2; 1]) ["t"])) "t")
  = Ok ([("x", 3); ("t", 3)], [0; 0; 10; 1; 1; 11; 3; 3; 13]%Z, [("x", 2); ("t", 3)], [5; 5; 5; 7; 7; 7]%Z) /\
  f_repeat ex_bins (OpNum 2) "x" = Err ValueError /\ f_reshape ex_bins [("z", 4)] = Err ValueError.
Proof.
  assert (W : forall sh l d, NoDup l -> length l = length sh -> wf (arr sh l d)) by (intros; split; auto).
  split; [apply W; [repeat (constructor; [simpl; intuition discriminate|]); constructor|reflexivity]|].
  split; [apply W; [repeat (constructor; [simpl; intuition discriminate|]); constructor|reflexivity]|].
  split; [|repeat split; vm_compute; reflexivity].
  intros ax n m [H|[]] [K|[K|[]]]; injection H as <- <-; inversion K; subst; auto.
Qed.

(** samples of a surface over [x] and [t] *)
Definition ex_points : farr Z Z := mkF (arr [3] ["x"] [0; 1; 3]%Z) (arr [2; 3] ["t"; "x"] [5; 6; 7;  8; 9; 10]%Z).

Example C69_points :
  f_shape ex_points = Ok [("t", 2); ("x", 3)] /\ (forall ax, binned ex_points ax = false) /\
  show (f_reshape ex_points [("i", 3); ("j", 2)])
  = Ok ([("i", 3); ("j", 2)], [0; 1; 3; 0; 1; 3]%Z, [("i", 3); ("j", 2)], [5; 6; 7; 8; 9; 10]%Z) /\
  f_reshape ex_points [("i", 4)] = Err ValueError.
Proof.
  split; [vm_compute; reflexivity|]. split; [|split; vm_compute; reflexivity].
  intros ax. unfold binned. cbn. destruct (String.eqb ax "t") eqn:E; [apply String.eqb_eq in E; now subst|].
  now destruct (String.eqb ax "x").
Qed.

(** The transpose of a function with bins does not have the reverse shape: axes of
    bins come last whatever the order of the parts. *)
Definition ex_mixed : farr Z Z := mkF (arr [2; 3] ["t"; "x"] [0; 1; 3;  10; 11; 13]%Z) (arr [2; 2] ["t"; "x"] [5; 6; 7; 8]%Z).

Theorem C69_order_refuted :
  exists f r : farr Z Z, exists sh, wf (f_inputs f) /\ wf (f_outputs f) /\ compatible f /\ f_shape f = Ok sh /\ dkeys sh = ["t"; "x"] /\
    f_transpose f None = Ok r /\ s_axes (f_outputs r) = ["x"; "t"] /\ f_shape r = Ok sh.
Proof.
  exists ex_mixed. eexists. eexists.
  assert (W : forall sh l d, NoDup l -> length l = length sh -> wf (arr sh l d)) by (intros; split; auto).
  split; [apply W; [repeat (constructor; [simpl; intuition discriminate|]); constructor|reflexivity]|].
  split; [apply W; [repeat (constructor; [simpl; intuition discriminate|]); constructor|reflexivity]|].
  split.
  - intros ax n m [H|[H|[]]] [K|[K|[]]]; injection H as <- <-; inversion K; subst; auto.
  - split; [vm_compute; reflexivity|]. split; [reflexivity|]. split; [reflexivity|]. split; [reflexivity|]. vm_compute; reflexivity.
Qed.
Print Assumptions C69_order_refuted.
