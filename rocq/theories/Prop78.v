(** C78: convolutions and filters with a moving window act along the named axes and
    treat every other axis elementwise. *)
From Coq Require Import String List Arith ZArith Bool.
From Verif Require Import Base Numpy Shapes Scalar Elementwise Uncertain Filter Spec SpecNumeric SpecUncertain SpecFilter.
From Verif Require FilterFacts UncertainFilterFacts.
Import ListNotations.
Open Scope nat_scope.
Open Scope list_scope.

(** The axes of the array and of the mask are those of the result, together with the
    axes of the kernel that are not convolved. *)
Theorem C78_convolve : forall (A K B : Type) (conv : convolution A K B) (array : operand A) (kernel : operand K) (axis : axis_arg)
  (where_ : operand bool) (sh : shape),
  op_wf array -> op_wf kernel -> op_wf where_ ->
  let ks := names_of axis kernel in
  incl ks (dkeys (op_shape array)) -> incl ks (dkeys (op_shape kernel)) ->
  broadcast_shapes [op_shape array; without (op_shape kernel) ks; op_shape where_] = Ok sh ->
  exists r, na_convolve conv array kernel axis where_ = Ok r /\ wf r /\ sshape r = sh /\
    forall e, at_ r e = convolved conv sh (op_at array) (op_at where_) (op_shape kernel) (op_at kernel) ks e.
Proof. intros. now apply FilterFacts.convolve_ok. Qed.
Print Assumptions C78_convolve.

Theorem C78_convolve_missing : forall (A K B : Type) (conv : convolution A K B) (array : operand A) (kernel : operand K) (axis : axis_arg)
  (where_ : operand bool),
  ~ incl (names_of axis kernel) (dkeys (op_shape array)) \/ ~ incl (names_of axis kernel) (dkeys (op_shape kernel)) ->
  na_convolve conv array kernel axis where_ = Err ValueError.
Proof. intros. now apply FilterFacts.convolve_missing. Qed.
Print Assumptions C78_convolve_missing.

Theorem C78_convolve_conflict : forall (A K B : Type) (conv : convolution A K B) (array : operand A) (kernel : operand K) (axis : axis_arg)
  (where_ : operand bool) (x : err),
  let ks := names_of axis kernel in
  incl ks (dkeys (op_shape array)) -> incl ks (dkeys (op_shape kernel)) ->
  broadcast_shapes [op_shape array; without (op_shape kernel) ks; op_shape where_] = Err x ->
  na_convolve conv array kernel axis where_ = Err x.
Proof. intros. now apply FilterFacts.convolve_conflict. Qed.
Print Assumptions C78_convolve_conflict.

(** When the axes are given, the storage order of the arguments does not matter. *)
Theorem C78_convolve_order : forall (A K B : Type) (conv : convolution A K B) (array array' : operand A) (kernel kernel' : operand K)
  (where_ where_' : operand bool) (axis : axis_arg),
  op_wf array -> op_wf kernel -> op_wf where_ -> op_wf array' -> op_wf kernel' -> op_wf where_' ->
  same_operand array array' -> same_operand kernel kernel' -> same_operand where_ where_' -> axis <> AxNone ->
  same_result (na_convolve conv array kernel axis where_) (na_convolve conv array' kernel' axis where_').
Proof. intros. now apply FilterFacts.convolve_same. Qed.
Print Assumptions C78_convolve_order.

(** The filters: [size] names the axes of the window. *)
Theorem C78_filter : forall (A B : Type) (flt : window A B) (array : operand A) (size : dict nat) (where_ : operand bool) (sh : shape),
  op_wf array -> op_wf where_ ->
  broadcast_shapes [op_shape array; op_shape where_] = Ok sh -> incl (dkeys size) (dkeys sh) ->
  exists r, na_ndfilter flt array size where_ = Ok r /\ wf r /\ sshape r = sh /\
    forall e, at_ r e = filtered flt sh (op_at array) (op_at where_) size e.
Proof. intros. now apply FilterFacts.ndfilter_ok. Qed.
Print Assumptions C78_filter.

Theorem C78_filter_refused : forall (A B : Type) (flt : window A B) (array : operand A) (size : dict nat) (where_ : operand bool),
  (forall x, broadcast_shapes [op_shape array; op_shape where_] = Err x -> na_ndfilter flt array size where_ = Err x) /\
  (forall sh, broadcast_shapes [op_shape array; op_shape where_] = Ok sh -> ~ incl (dkeys size) (dkeys sh) ->
   na_ndfilter flt array size where_ = Err ValueError).
Proof. intros. split; [intros; now apply FilterFacts.ndfilter_conflict|intros; now apply (FilterFacts.ndfilter_missing flt array size where_ sh)]. Qed.
Print Assumptions C78_filter_refused.

Theorem C78_filter_order : forall (A B : Type) (flt : window A B) (array array' : operand A) (size : dict nat) (where_ where_' : operand bool),
  op_wf array -> op_wf where_ -> op_wf array' -> op_wf where_' -> same_operand array array' -> same_operand where_ where_' ->
  same_result (na_ndfilter flt array size where_) (na_ndfilter flt array' size where_').
Proof. intros. now apply FilterFacts.ndfilter_same. Qed.
Print Assumptions C78_filter_order.

(** Uncertain scalars: every world is convolved by itself, the sizes being those of
    the uncertain arrays.  This is proved when an axis that is given as a string has a
    name of one character. *)
Theorem C78_uncertain_partial : forall (A K B : Type) (conv : convolution A K B) (array : uop A) (kernel : uop K) (where_ : uop bool)
  (axis : axis_arg) (sa sk sw sh : shape) (t : option nat -> shape),
  u_wf (unc_of array) -> u_wf (unc_of kernel) -> u_wf (unc_of where_) -> short_name axis ->
  u_shape (unc_of array) = Ok sa -> u_shape (unc_of kernel) = Ok sk -> u_shape (unc_of where_) = Ok sw -> broadcast_shapes [sa; sw] = Ok sh ->
  let ks := u_names axis sk in
  incl ks (dkeys sk) -> incl ks (dkeys sh) ->
  (forall w, broadcast_shapes (meeting (unc_of array) (unc_of kernel) (unc_of where_) ks w) = Ok (t w)) ->
  exists r, u_convolve conv array kernel axis where_ = Ok r /\ u_wf r /\
    (forall w ax n, In (ax, n) (op_shape (u_part r w)) <-> if smem ax ks then In (ax, n) sh else In (ax, n) (t w)) /\
    forall w e, u_inside r w e ->
      u_at (Uncertain r) w e = convolved conv sh (u_at array w) (u_at where_ w) sk (u_at kernel w) ks e.
Proof. intros. now apply (UncertainFilterFacts.u_convolve_ok conv array kernel where_ axis) with (sa := sa) (sw := sw). Qed.
Print Assumptions C78_uncertain_partial.

(** An axis that is missing is a KeyError here, and shapes that conflict in some world
    are a ValueError. *)
Theorem C78_uncertain_refused : forall (A K B : Type) (conv : convolution A K B) (array : uop A) (kernel : uop K) (where_ : uop bool)
  (axis : axis_arg) (sa sk sw sh : shape),
  u_wf (unc_of array) -> u_wf (unc_of kernel) -> u_wf (unc_of where_) -> short_name axis ->
  u_shape (unc_of array) = Ok sa -> u_shape (unc_of kernel) = Ok sk -> u_shape (unc_of where_) = Ok sw -> broadcast_shapes [sa; sw] = Ok sh ->
  let ks := u_names axis sk in
  (~ incl ks (dkeys sk) \/ ~ incl ks (dkeys sh) -> u_convolve conv array kernel axis where_ = Err KeyError) /\
  (incl ks (dkeys sk) -> incl ks (dkeys sh) ->
   forall w x, broadcast_shapes (meeting (unc_of array) (unc_of kernel) (unc_of where_) ks w) = Err x ->
   u_convolve conv array kernel axis where_ = Err ValueError).
Proof.
  intros. split.
  - intros M. now apply (UncertainFilterFacts.u_convolve_missing conv array kernel where_ axis) with (sa := sa) (sk := sk) (sw := sw) (sh := sh).
  - intros I J w x E. now apply (UncertainFilterFacts.u_convolve_conflict conv array kernel where_ axis) with (sa := sa) (sk := sk) (sw := sw) (sh := sh) (w := w) (x := x).
Qed.
Print Assumptions C78_uncertain_refused.

(** An axis given as a string is read character by character. *)
Theorem C78_string : forall (A K B : Type) (conv : convolution A K B) (array : uop A) (kernel : uop K) (where_ : uop bool) (s : string) (sk : shape),
  u_wf (unc_of array) -> u_wf (unc_of kernel) -> u_wf (unc_of where_) -> u_shape (unc_of kernel) = Ok sk ->
  ~ incl (characters s) (dkeys sk) -> u_convolve conv array kernel (AxName s) where_ = Err KeyError.
Proof. intros. now apply UncertainFilterFacts.u_convolve_string with (sk := sk). Qed.
Print Assumptions C78_string.

(** ** Examples *)

Open Scope string_scope.

(** sums of products along one axis, beyond the ends of which nothing is added *)
Definition ex_conv : convolution nat nat nat := fun n a m nk k pos =>
  let i := hd 0 pos in
  fold_right plus 0 (map (fun j => if andb (nth (i + j) m false) (Nat.ltb (i + j) (hd 0 n)) then nth (i + j) a 0 * nth j k 0 else 0) (seq 0 (hd 0 nk))).

Definition ex_array : sarr nat := mkS (mkNd [2; 3] (fun i => 10 * nth 0 i 0 + nth 1 i 0)) ["y"; "time"].
Definition ex_kernel : sarr nat := mkS (mkNd [2; 2] (fun i => 1 + nth 0 i 0 + 2 * nth 1 i 0)) ["time"; "y"].
Definition ex_where : sarr bool := mkS (mkNd [3] (fun i => negb (Nat.eqb (nth 0 i 0) 1))) ["time"].

Definition show {A} (r : res (sarr A)) : res (shape * list A) :=
  match r with Ok a => Ok (sshape a, ravel (s_nd a)) | Err e => Err e end.

Definition u_show {A} (r : res (unc A)) : res ((shape * list A) * (shape * list A)) :=
  match r with
  | Ok u => match show (Ok (normalize (u_nominal u))), show (Ok (normalize (u_distribution u))) with
            | Ok n, Ok d => Ok (n, d) | Err e, _ | _, Err e => Err e end
  | Err e => Err e
  end.

Example C78_example_convolve :
  show (na_convolve ex_conv (OpArr ex_array) (OpArr ex_kernel) (AxName "time") (OpArr ex_where)) =
  Ok ([("y", 2); ("time", 3)], [0; 4; 2; 30; 48; 36]).
Proof. vm_compute. reflexivity. Qed.

(** the storage order of every argument changed *)
Example C78_example_order :
  exists a k w, wf a /\ wf k /\ wf w /\ same_array ex_array a /\ same_array ex_kernel k /\ same_array ex_where w /\ s_axes a <> s_axes ex_array /\
    s_axes k <> s_axes ex_kernel.
Proof.
  exists (mkS (mkNd [3; 2] (fun i => 10 * nth 1 i 0 + nth 0 i 0)) ["time"; "y"]), (mkS (mkNd [2; 2] (fun i => 1 + nth 1 i 0 + 2 * nth 0 i 0)) ["y"; "time"]), ex_where.
  assert (N : forall a b : string, a <> b -> NoDup [a; b]).
  { intros a b H. constructor; [intros [X|[]]; congruence|]. constructor; [intros []|constructor]. }
  split; [split; [apply N; discriminate|reflexivity]|]. split; [split; [apply N; discriminate|reflexivity]|].
  split; [split; [constructor; [intros []|constructor]|reflexivity]|].
  split; [split; [intros ax n; cbn; tauto|intros e _; reflexivity]|].
  split; [split; [intros ax n; cbn; tauto|intros e _; reflexivity]|].
  split; [split; [intros ax n; cbn; tauto|intros e _; reflexivity]|]. split; discriminate.
Qed.

(** the largest value of a window, over all axes *)
Definition ex_filter : window nat nat := fun n size a m pos =>
  fold_right max 0 (map (fun j => if nth j m false then nth j a 0 else 0) (seq (hd 0 pos) (hd 0 size))).

Example C78_example_filter :
  show (na_ndfilter ex_filter (OpArr ex_array) [("time", 2)] (OpArr ex_where)) =
    Ok ([("y", 2); ("time", 3)], [0; 2; 2; 10; 12; 12]) /\
  show (na_ndfilter ex_filter (OpArr ex_array) [("z", 2)] (OpArr ex_where)) = Err ValueError.
Proof. vm_compute. split; reflexivity. Qed.

(** two samples of the array, a certain kernel *)
Definition ex_samples : sarr nat := mkS (mkNd [2; 3] (fun i => 100 * nth 0 i 0 + nth 1 i 0)) [axis_distribution; "x"].
Definition ex_nominal : sarr nat := mkS (mkNd [3] (fun i => nth 0 i 0)) ["x"].
Definition ex_k : sarr nat := mkS (mkNd [2] (fun i => 1 + nth 0 i 0)) ["x"].
Definition ex_uncertain : uop nat := Uncertain (mkU (OpArr ex_nominal) (OpArr ex_samples)).

Example C78_example_uncertain :
  u_show (u_convolve ex_conv ex_uncertain (Certain (OpArr ex_k)) (AxName "x") (Certain (OpNum true))) =
    Ok (([("x", 3)], [2; 5; 2]), ([(axis_distribution, 2); ("x", 3)], [2; 5; 2; 302; 305; 102])) /\
  u_wf (unc_of ex_uncertain) /\ u_wf (unc_of (Certain (OpArr ex_k))) /\ u_wf (unc_of (Certain (OpNum true))) /\
  u_shape (unc_of ex_uncertain) = Ok [("x", 3)] /\ u_shape (unc_of (Certain (OpArr ex_k))) = Ok [("x", 2)] /\
  (forall w, exists t, broadcast_shapes (meeting (unc_of ex_uncertain) (unc_of (Certain (OpArr ex_k))) (unc_of (Certain (OpNum true))) ["x"] w) = Ok t).
Proof.
  split; [vm_compute; reflexivity|].
  split; [split; [split; [constructor; [intros []|constructor]|reflexivity]|split; [split; [constructor; [intros [X|[]]; discriminate|constructor; [intros []|constructor]]|reflexivity]|intros [X|[]]; discriminate]]|].
  split; [split; [split; [constructor; [intros []|constructor]|reflexivity]|split; [split; [constructor; [intros []|constructor]|reflexivity]|intros [X|[]]; discriminate]]|].
  split; [split; [exact I|split; [exact I|intros []]]|].
  split; [reflexivity|]. split; [reflexivity|]. intros [k|]; eexists; vm_compute; reflexivity.
Qed.

(** The same axis with a longer name: the scalar version convolves along it, the
    uncertain one does not find the characters of the name among the axes. *)
Definition ex_long : sarr nat := mkS (mkNd [3] (fun i => nth 0 i 0)) ["time"].
Definition ex_long_k : sarr nat := mkS (mkNd [2] (fun i => 1 + nth 0 i 0)) ["time"].

Theorem C78_string_refuted :
  show (na_convolve ex_conv (OpArr ex_long) (OpArr ex_long_k) (AxName "time") (OpNum true)) = Ok ([("time", 3)], [2; 5; 2]) /\
  u_show (u_convolve ex_conv (Uncertain (mkU (OpArr ex_long) (OpArr ex_long))) (Certain (OpArr ex_long_k)) (AxNames ["time"]) (Certain (OpNum true))) =
    Ok (([("time", 3)], [2; 5; 2]), ([("time", 3)], [2; 5; 2])) /\
  u_convolve ex_conv (Uncertain (mkU (OpArr ex_long) (OpArr ex_long))) (Certain (OpArr ex_long_k)) (AxName "time") (Certain (OpNum true)) = Err KeyError.
Proof. vm_compute. repeat split; reflexivity. Qed.
Print Assumptions C78_string_refuted.
