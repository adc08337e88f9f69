(** Model of [na.random.choice] for scalar arrays
    (named_arrays/_scalars/scalar_named_array_functions.py). *)
From Coq Require Import String List Arith ZArith Bool QArith Qcanon.
From Verif Require Import Base Numpy Shapes Scalar Elementwise Derived Interp Hist.
Import ListNotations.
Open Scope nat_scope.
Open Scope list_scope.

(** The random numbers: from a state, the number of choices, their probabilities,
    whether a choice may be repeated and the shape of the sample, the number of the
    choice for every index of the sample, and the next state. *)
Definition drawing (G : Type) : Type := G -> nat -> option (list Qc) -> bool -> list nat -> (list nat -> nat) * G.

Definition list_sum (l : list Qc) : Qc := fold_right Qcplus (qz 0) l.

(** [func(a, size, replace, p)], where [func] is [np.random.choice] or the method of
    a generator (trusted numpy behaviour, the sum of the probabilities being exact) *)
Definition np_choice {A G} (draw : drawing G) (junk : A) (g : G) (a : list A) (size : list nat) (replace : bool)
           (p : option (list Qc)) : res (nd A * G) :=
  if (length a =? 0) && negb (prod size =? 0) then Err ValueError
  else if match p with
          | Some l => existsb (fun w => qc_ltb w (qz 0)) l || negb (qc_eqb (list_sum l) (qz 1))
          | None => false
          end then Err ValueError
  else if negb replace && (length a <? prod size) then Err ValueError
  else if negb replace && match p with
                          | Some l => length (filter (fun w => qc_ltb (qz 0) w) l) <? prod size
                          | None => false
                          end then Err ValueError
  else let (s, g') := draw g (length a) p replace size in
       Ok (mkNd size (fun idx => nth (s idx) a junk), g').

(** [p_i = p[i].ndarray.reshape(-1); p_i = p_i / p_i.sum()], 824-828; a sum of zero
    gives NaN there, which [choice] refuses like the zeros here *)
Definition probabilities (p : option (sarr Qc)) (i : dict nat) : res (option (list Qc)) :=
  match p with
  | Some p => x <- getitem p (int_items i) ;;
              let l := ravel (s_nd x) in
              Ok (Some (map (fun w => (w / list_sum l)%Qc) l))
  | None => Ok None
  end.

(** the body of the loop, 822-841; the result holds floating-point numbers, into
    which the assignment converts ([cast]) *)
Definition choice_step {A B G} (draw : drawing G) (cast : A -> B) (junk : A) (a : sarr A) (p : option (sarr Qc))
           (replace : bool) (shape_i : shape) (st : sarr B * G) (i : dict nat) : res (sarr B * G) :=
  p_i <- probabilities p i ;;
  a_i <- getitem a (int_items i) ;;
  rg <- np_choice draw junk (snd st) (ravel (s_nd a_i)) (dvals shape_i) replace p_i ;;
  v <- mk_sarr (mkNd (nshape (fst rg)) (fun idx => cast (nget (fst rg) idx))) (dkeys shape_i) ;;
  r <- setitem (fst st) (int_items i) (OpArr v) ;;
  Ok (r, snd rg).

(** [random_choice], 778-846, without units; [empty] is what [ScalarArray.empty]
    happens to contain.  [axis] is a sequence (a string is a one-element one) or
    [None]; [shape_random] is [{}] for [None]. *)
Definition na_random_choice {A B G} (draw : drawing G) (cast : A -> B) (junk : A) (empty : B) (g : G)
           (a : operand A) (p : option (operand Qc)) (axis : option (list string)) (replace : bool)
           (shape_random : shape) : res (sarr B * G) :=
  let a := normalize a in
  let p := option_map normalize p in
  shape_ap <- broadcast_shapes (sshape a :: match p with Some p => [sshape p] | None => [] end) ;;
  a <- na_broadcast_to a shape_ap false ;;
  p <- match p with
       | Some p => b <- na_broadcast_to p shape_ap false ;; Ok (Some b)
       | None => Ok None
       end ;;
  let axis := match axis with Some l => l | None => dkeys shape_ap end in
  let orth := orthogonal shape_ap axis in
  shape_result <- broadcast_shapes [shape_random; orth] ;;
  let shape_i := filter (fun kv => negb (smem (fst kv) (dkeys orth))) shape_random in
  foldM (choice_step draw cast junk a p replace shape_i) (na_ndindex shape_ap axis)
        (mkS (mkNd (dvals shape_result) (fun _ => empty)) (dkeys shape_result), g).
