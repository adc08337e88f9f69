(** Model of [rankdata] (named_arrays/stats.py).

    The elements are floating-point numbers: [None] is NaN, [Some x] a number.
    [argsort1] is numpy's argsort of one line (NaN last), [argsort_int] that of a
    line of integers, [eqb] compares numbers.  Ranks are exact numbers. *)
From Coq Require Import String List Arith ZArith Bool QArith Qcanon.
From Verif Require Import Base Numpy Shapes Scalar Reorder Elementwise Reduce Along Sorting.
Import ListNotations.
Open Scope nat_scope.
Open Scope list_scope.

(** a ufunc of one or two arrays, [__array_ufunc__], scalars.py:527-610; the
    other case does not occur *)
Definition map1 {A B} (h : A -> B) (d : B) (a : sarr A) : res (sarr B) :=
  array_ufunc (fun l => match l with [x] => h x | _ => d end) [OpArr a].
Definition map2 {A B} (h : A -> A -> B) (d : B) (a b : sarr A) : res (sarr B) :=
  array_ufunc (fun l => match l with [x; y] => h x y | _ => d end) [OpArr a; OpArr b].

(** [x != y] for floating-point numbers: NaN differs from everything *)
Definition differ {A} (eqb : A -> A -> bool) (x y : option A) : bool :=
  match x, y with Some x, Some y => negb (eqb x y) | _, _ => true end.

(** [na.indices(shape)], _core.py:252-261 *)
Definition na_indices (sh : shape) : dict (sarr Z) := map (fun kv => (fst kv, arange (fst kv) (snd kv))) sh.

Definition methods : list string := ["average"; "min"; "max"; "dense"]%string.

(** [slice(i, j)] *)
Definition piece (i j : Z) : item := ItSlice (mkSlice (Some i) (Some j) None).

Definition lookup {V} (d : dict V) (k : string) : res V :=
  match dget d k with Some v => Ok v | None => Err KeyError end.

Section Rank.
Context {A : Type} (argsort1 : list (option A) -> list nat) (argsort_int : list Z -> list nat) (eqb : A -> A -> bool).

(** the groups of equal elements in the sorted lines, numbered from one,
    stats.py:171-176 *)
Definition rank_groups (a_sorted : sarr (option A)) (axis : string) (n : nat) : res (sarr Z) :=
  upper <- getitem a_sorted [(axis, piece 1 (Z.of_nat n))] ;;
  lower <- getitem a_sorted [(axis, piece 0 (Z.of_nat n - 1))] ;;
  is_new_group <- map2 (differ eqb) false upper lower ;;
  first <- na_broadcast_to (mkS (mkNd [1] (fun _ => true)) [axis]) (dset (sshape is_new_group) axis 1) false ;;
  is_new_group <- na_concatenate [OpArr first; OpArr is_new_group] axis None ;;
  steps <- map1 (fun b : bool => if b then 1%Z else 0%Z) 0%Z is_new_group ;;
  na_cumulative (fold_right Z.add 0%Z) false steps (Some [axis]) None.

(** the number of elements up to the end of every group, stats.py:182-186.
    numpy does not promise which of several values for one element is kept; the
    code relies on the last one being kept, and so does this model. *)
Definition rank_counts (a_sorted : sarr (option A)) (group : sarr Z) (axis : string) (n : nat) : res (sarr Z) :=
  let shape_count := dset (sshape a_sorted) axis (S n) in
  let count := mkS (mkNd (dvals shape_count) (fun _ => 0%Z)) (dkeys shape_count) in
  let index_count := dset (na_indices shape_count) axis group in
  value <- map1 (fun i => i + 1)%Z 0%Z (arange axis n) ;;
  setitem count (as_item index_count) (OpArr value).

Definition half (z : Z) : Qc := Q2Qc (z # 2).
Definition whole (z : Z) : Qc := Q2Qc (inject_Z z).

(** the ranks in sorted order, stats.py:188-198 *)
Definition rank_sorted (method : string) (count group : sarr Z) (axis : string) : res (sarr Qc) :=
  count_leq <- na_take_along_axis (OpArr count) (OpArr group) axis ;;
  before <- map1 (fun g => g - 1)%Z 0%Z group ;;
  count_less <- na_take_along_axis (OpArr count) (OpArr before) axis ;;
  if String.eqb method "average" then map2 (fun x y => half (x + y + 1)) (half 0) count_less count_leq
  else if String.eqb method "min" then map1 (fun x => whole (x + 1)) (half 0) count_less
  else if String.eqb method "max" then map1 whole (half 0) count_leq
  else map1 whole (half 0) group.

(** stats.py:162-200 *)
Definition rank_axis (method : string) (a : sarr (option A)) (axis : string) : res (sarr Qc) :=
  n <- lookup (sshape a) axis ;;
  d <- na_argsort argsort1 a (Some [axis]) ;;
  sorter <- lookup d axis ;;
  d <- na_argsort argsort_int sorter (Some [axis]) ;;
  inverse <- lookup d axis ;;
  a_sorted <- na_take_along_axis (OpArr a) (OpArr sorter) axis ;;
  group <- rank_groups a_sorted axis n ;;
  count <- rank_counts a_sorted group axis n ;;
  ranks <- rank_sorted method count group axis ;;
  na_take_along_axis (OpArr ranks) (OpArr inverse) axis.

(** one axis is kept, several axes are combined into one, stats.py:152-160 *)
Definition flattened {B} (a : sarr B) (axis : list string) : res (string * sarr B) :=
  match axis with
  | [ax] => Ok (ax, a)
  | _ => name <- flatten_axes axis ;; c <- combine_axes a (Some axis) (Some name) ;; Ok (name, c)
  end.

(** [rankdata], stats.py:103-205, with units removed.  [where] is a mask only if
    it is an array; a Python bool is ignored. *)
Definition rankdata (a : sarr (option A)) (axis : option (list string)) (method : string) (where_ : operand bool)
  : res (sarr (option Qc)) :=
  if negb (smem method methods) then Err ValueError
  else
    match where_ with
    | OpNum _ =>
        p <- flattened a (axis_normalized a axis) ;;
        let (name, c) := p in
        r <- rank_axis method c name ;;
        map1 Some None r
    | OpArr w =>
        sh <- broadcast_shapes [sshape a; sshape w] ;;
        a <- na_broadcast_to a sh false ;;
        w <- na_broadcast_to w sh false ;;
        a <- na_where (OpArr w) (OpArr a) (OpNum None) ;;
        p <- flattened a (axis_normalized a axis) ;;
        let (name, c) := p in
        q <- flattened w (axis_normalized a axis) ;;
        r <- rank_axis method c name ;;
        r <- map1 Some None r ;;
        na_where (OpArr (snd q)) (OpArr r) (OpNum None)
    end.
End Rank.
