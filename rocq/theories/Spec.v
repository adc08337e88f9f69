(** The vocabulary in which the properties are stated.

    A named array is observed by looking up elements with *labelled* indices:
    an assignment of one position to every axis name.  Nothing here refers to
    the order in which an array stores its axes, nor to any helper of the
    model: only the stored values, the axis names and the shape are used. *)
From Coq Require Import String List Arith ZArith Bool Lia Sorted Permutation.
From Verif Require Import Base Numpy Shapes Scalar.
Import ListNotations.
Open Scope nat_scope.
Open Scope list_scope.

(** one position for every axis name *)
Definition env := string -> nat.

(** the element of [a] at a labelled index *)
Definition at_ {A} (a : sarr A) (e : env) : A := nget (s_nd a) (map e (s_axes a)).

(** a labelled index is inside a shape *)
Definition inside (e : env) (sh : shape) : Prop :=
  forall ax n, In (ax, n) sh -> e ax < n.

(** the invariant that the constructor of [ScalarArray] enforces *)
Definition wf {A} (a : sarr A) : Prop :=
  NoDup (s_axes a) /\ length (s_axes a) = length (nshape (s_nd a)).

(** labelled lookup with broadcasting: an axis of size 1 is read at 0 *)
Definition bclamp (sh : shape) (e : env) : env :=
  fun ax => match dget sh ax with Some 1 => 0 | _ => e ax end.

Definition bat {A} (a : sarr A) (e : env) : A := at_ a (bclamp (sshape a) e).

Definition op_at {A} (o : operand A) (e : env) : A :=
  match o with OpArr a => bat a e | OpNum x => x end.

Definition op_shape {A} (o : operand A) : shape :=
  match o with OpArr a => sshape a | OpNum _ => [] end.

Definition op_wf {A} (o : operand A) : Prop :=
  match o with OpArr a => wf a | OpNum _ => True end.

(** the same shape up to the order of the axes *)
Definition same_shape (s t : shape) : Prop :=
  forall ax n, In (ax, n) s <-> In (ax, n) t.

(** the same labelled array, whatever the storage order *)
Definition same_array {A} (a b : sarr A) : Prop :=
  same_shape (sshape a) (sshape b) /\
  forall e, inside e (sshape a) -> at_ a e = at_ b e.

Definition same_operand {A} (o p : operand A) : Prop :=
  match o, p with
  | OpArr a, OpArr b => same_array a b
  | OpNum x, OpNum y => x = y
  | _, _ => False
  end.

(** same outcome: both succeed with the same labelled array, or both raise the
    same exception *)
Definition same_result {A} (r s : res (sarr A)) : Prop :=
  match r, s with
  | Ok a, Ok b => same_array a b
  | Err e, Err e' => e = e'
  | _, _ => False
  end.

(** the sizes that the shapes of a list give to one axis *)
Definition sizes_of (l : list shape) (ax : string) : list nat :=
  flat_map (fun s => match dget s ax with Some n => [n] | None => [] end) l.

(** the common size of an axis: all sizes are 1 or the common one, and the
    common one is 1 only if all are *)
Definition common_size (l : list nat) (n : nat) : Prop :=
  (forall m, In m l -> m = 1 \/ m = n) /\ ((forall m, In m l -> m = 1) -> n = 1).

(** names in order of first appearance *)
Definition first_appearance (l : list string) : list string :=
  rev (nodup string_dec (rev l)).

(** two shapes of the list disagree about an axis *)
Definition conflict (l : list shape) : Prop :=
  exists ax n m, In n (sizes_of l ax) /\ In m (sizes_of l ax) /\ n <> m /\ n <> 1 /\ m <> 1.

(** product of the sizes of the axes [axes] in the shape [sh] *)
Definition total_size (sh : shape) (axes : list string) : nat :=
  fold_right (fun ax acc => match dget sh ax with Some n => n * acc | None => 0 end) 1 axes.

(** simultaneous renaming of labels *)
Definition rename (pairs : list (string * string)) (ax : string) : string :=
  match dget pairs ax with Some new => new | None => ax end.

(** setting one label of an index *)
Definition set_env (e : env) (ax : string) (i : nat) : env :=
  fun x => if String.eqb x ax then i else e x.

(** ** What an index selects *)

(** [p] is the position that the integer [z] denotes along an axis of size [n]
    (negative integers count from the end) *)
Definition index_is (n : nat) (z : Z) (p : nat) : Prop :=
  p < n /\ Z.of_nat p = (if (z <? 0)%Z then z + Z.of_nat n else z)%Z.

Definition in_range (n : nat) (z : Z) : Prop := (- Z.of_nat n <= z < Z.of_nat n)%Z.

(** Python's slice semantics: first position, end position and step *)
Definition slice_step (s : pyslice) : Z := match sl_step s with Some k => k | None => 1%Z end.

Definition slice_first (s : pyslice) (n : Z) : Z :=
  match sl_start s with
  | None => if (0 <? slice_step s)%Z then 0 else n - 1
  | Some v =>
      if (0 <? slice_step s)%Z
      then (if (v <? 0)%Z then Z.max 0 (v + n) else Z.min v n)
      else (if (v <? 0)%Z then Z.max (-1) (v + n) else Z.min v (n - 1))
  end%Z.

Definition slice_end (s : pyslice) (n : Z) : Z :=
  match sl_stop s with
  | None => if (0 <? slice_step s)%Z then n else -1
  | Some v =>
      if (0 <? slice_step s)%Z
      then (if (v <? 0)%Z then Z.max 0 (v + n) else Z.min v n)
      else (if (v <? 0)%Z then Z.max (-1) (v + n) else Z.min v (n - 1))
  end%Z.

(** [p] is the [i]-th position selected by the slice on an axis of size [n] *)
Definition slice_selects (s : pyslice) (n : nat) (i p : nat) : Prop :=
  Z.of_nat p = (slice_first s (Z.of_nat n) + Z.of_nat i * slice_step s)%Z /\
  (if (0 <? slice_step s)%Z
   then (Z.of_nat p < slice_end s (Z.of_nat n))%Z
   else (slice_end s (Z.of_nat n) < Z.of_nat p)%Z).

(** [p] is the position read along an axis of size [n] which is indexed by [i],
    when the result is looked up at [e] *)
Definition selects (n : nat) (i : option item) (e : env) (ax : string) (p : nat) : Prop :=
  match i with
  | None | Some ItNone => p = e ax
  | Some (ItInt z) | Some (ItNpInt z) => index_is n z p
  | Some (ItSlice s) => slice_selects s n (e ax) p
  | Some (ItArr v) => index_is n (bat v e) p
  end.

(** an item that indexing keeps the axis for *)
Definition keeps_axis (i : option item) : bool :=
  match i with None | Some ItNone | Some (ItSlice _) => true | _ => false end.

Definition item_wf (i : item) : Prop := match i with ItArr v => wf v | _ => True end.

(** an item that can index an axis of size [n] *)
Definition item_ok (n : nat) (i : option item) : Prop :=
  match i with
  | None | Some ItNone => True
  | Some (ItInt z) | Some (ItNpInt z) => in_range n z
  | Some (ItSlice s) => sl_step s <> Some 0%Z
  | Some (ItArr v) => forall e, inside e (sshape v) -> in_range n (at_ v e)
  end.

(** items that assignment supports: Python integers, slices and arrays *)
Definition item_py (i : item) : Prop :=
  match i with ItNone | ItNpInt _ => False | _ => True end.

(** shapes of the index arrays for the axes [axes] *)
Definition index_shapes (axes : list string) (it : dict item) : list shape :=
  flat_map (fun kv => match snd kv with
                      | ItArr v => if smem (fst kv) axes then [sshape v] else []
                      | _ => []
                      end) it.

(** the shape [s] can be broadcast to the shape [t] *)
Definition fits_in (s t : shape) : Prop :=
  forall ax n, In (ax, n) s -> exists m, In (ax, m) t /\ (n = 1 \/ n = m).

Definition op_fits {A} (o : operand A) (t : shape) : Prop :=
  match o with OpArr a => fits_in (sshape a) t | OpNum _ => True end.

(** the items of a dictionary address the element at [e'] of an array of shape
    [sh] through the position [e] of the selection; [sa] is the common shape of
    the index arrays *)
Definition addresses (sh sa : shape) (it : dict item) (e e' : env) : Prop :=
  inside e sa /\
  forall ax n, In (ax, n) sh -> e' ax < n /\ selects n (dget it ax) e ax (e' ax).

(** ** Row-major order *)

Fixpoint lex_lt (i j : list nat) : Prop :=
  match i, j with
  | x :: i', y :: j' => x < y \/ (x = y /\ lex_lt i' j')
  | _, _ => False
  end.

(** row-major position of the indices [idx] in a grid with the given sizes *)
Definition row_major (sizes idx : list nat) : nat :=
  fold_left (fun acc p => acc * fst p + snd p) (combine sizes idx) 0.

(** [l] lists the positions where the mask is true, in row-major order *)
Definition true_positions (m : sarr bool) (l : list (list nat)) : Prop :=
  StronglySorted lex_lt l /\
  forall idx, In idx l <-> exists e, inside e (sshape m) /\ at_ m e = true /\ idx = map e (s_axes m).

(** ** Reductions *)

(** the size of an axis, 1 when it is absent *)
Definition size_of (sh : shape) (ax : string) : nat :=
  match dget sh ax with Some n => n | None => 1 end.

(** all the labelled indices obtained from [e] by running through the positions
    of the axes [S] *)
Fixpoint fibre (sh : shape) (S : list string) (e : env) : list env :=
  match S with
  | [] => [e]
  | ax :: S' => flat_map (fun i => fibre sh S' (set_env e ax i)) (seq 0 (size_of sh ax))
  end.

(** the result does not depend on the order of the elements *)
Definition symmetric {A B} (f : list A -> B) : Prop := forall l l', Permutation l l' -> f l = f l'.

(** the same optional mask, whatever the storage order *)
Definition same_mask (w w' : option (operand bool)) : Prop :=
  match w, w' with
  | Some o, Some o' => same_operand o o'
  | None, None => True
  | _, _ => False
  end.

(** the elements of [a] met from [e] by running along the axis [ax] *)
Definition line {A} (a : sarr A) (ax : string) (e : env) : list A :=
  map (fun j => at_ a (set_env e ax j)) (seq 0 (size_of (sshape a) ax)).

(** the shape [sh] with the size of the axis [ax] changed to [n] *)
Definition resized (sh : shape) (ax : string) (n : nat) : shape :=
  map (fun kv => (fst kv, if String.eqb (fst kv) ax then n else snd kv)) sh.

(** the differences of consecutive elements *)
Fixpoint delta {A} (sub : A -> A -> A) (l : list A) : list A :=
  match l with
  | [] => []
  | x :: l' => match l' with [] => [] | y :: _ => sub y x :: delta sub l' end
  end.

(** the sum of a list, added from left to right *)
Definition sum_list {A} (add : A -> A -> A) (zero : A) (l : list A) : A :=
  match l with [] => zero | x :: l' => fold_left add l' x end.

(** every element repeated as many times as the list of counts says *)
Fixpoint expand {A} (counts : list nat) (l : list A) : list A :=
  match counts, l with
  | k :: counts', x :: l' => repeat x k ++ expand counts' l'
  | _, _ => []
  end.

(** the array [o] can take the values of [r]: it has the same sizes by name,
    and may lack axes of size 1 *)
Definition out_fits {A} (o r : sarr A) : Prop :=
  incl (s_axes o) (s_axes r) /\ forall ax, In ax (s_axes r) -> size_of (sshape r) ax = size_of (sshape o) ax.

(** ** Sorting *)

(** inside the array as far as the axes not in [l] are concerned *)
Definition inside_but (e : env) (sh : shape) (l : list string) : Prop :=
  forall ax n, In (ax, n) sh -> ~ In ax l -> e ax < n.

(** the name of the combination of several axes *)
Definition flat_name (l : list string) : string := String.concat "*" l.

(** the axes [l] can be combined: they are distinct axes of the array, at least
    one, and no other axis is empty or has the name of the combination *)
Definition sortable {A} (a : sarr A) (l : list string) : Prop :=
  l <> [] /\ NoDup l /\ incl l (s_axes a) /\
  (forall ax n, In (ax, n) (sshape a) -> ~ In ax l -> n <> 0 /\ ax <> flat_name l).

(** [sort1] sorts a list *)
Definition sorts {A} (le : A -> A -> Prop) (sort1 : list A -> list A) : Prop :=
  forall l, Permutation l (sort1 l) /\ StronglySorted le (sort1 l).

(** [arg1] lists the positions of the elements of a list in an order that sorts it *)
Definition argsorts {A} (le : A -> A -> Prop) (arg1 : list A -> list nat) : Prop :=
  forall l, Permutation (seq 0 (length l)) (arg1 l) /\
    StronglySorted (fun i j => forall x y, nth_error l i = Some x -> nth_error l j = Some y -> le x y) (arg1 l).

(** [pick] gives the first position of a least element *)
Definition first_least {A} (le : A -> A -> Prop) (pick : list A -> nat) : Prop :=
  forall l, l <> [] -> exists x, nth_error l (pick l) = Some x /\
    (forall y, In y l -> le x y) /\
    (forall j y, j < pick l -> nth_error l j = Some y -> ~ le y x).

(** [m] gives a least element *)
Definition least {A} (le : A -> A -> Prop) (m : list A -> A) : Prop :=
  forall l, l <> [] -> In (m l) l /\ forall y, In y l -> le (m l) y.
