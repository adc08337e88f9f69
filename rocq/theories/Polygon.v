(** Model of [na.geometry.point_in_polygon] for scalar arrays. *)
From Coq Require Import String List Arith Bool.
From Verif Require Import Base Numpy Shapes Scalar Elementwise.
Import ListNotations.
Open Scope nat_scope.
Open Scope list_scope.

(** [_point_in_polygon_quantity], geometry/_point_in_polygon.py:95-149, and the loop
    of [_point_in_polygon_numba], 151-190, for arguments that already have the shapes
    [s], [s], [s + (n,)] and [s + (n,)], as in the only call (so that the broadcasts
    in lines 126-138 change nothing), and without units.  [contains] is
    [regridding.geometry.point_is_inside_polygon].  [reshape(-1, 0)] raises ValueError
    and [shape[~0]] of a zero-dimensional array IndexError. *)
Definition np_point_in_polygon {A B} (contains : A -> A -> list A -> list A -> B) (x y vx vy : nd A) : res (nd B) :=
  match rev (nshape vx) with
  | [] => Err IndexError
  | 0 :: _ => Err ValueError
  | n :: _ =>
      let s := nshape x in
      let x := reshape [prod s] x in
      let y := reshape [prod s] y in
      let vx := reshape [prod s; n] vx in
      let vy := reshape [prod s; n] vy in
      let row (v : nd A) idx := map (fun k => nget v (idx ++ [k])) (seq 0 n) in
      Ok (reshape s (mkNd [prod s] (fun idx => contains (nget x idx) (nget y idx) (row vx idx) (row vy idx))))
  end.

(** [point_in_polygon], scalar_named_array_functions.py:2132-2178 *)
Definition na_point_in_polygon {A B} (contains : A -> A -> list A -> list A -> B) (x y vx vy : operand A) (axis : string)
  : res (sarr B) :=
  let x := normalize x in
  let y := normalize y in
  let vx := normalize vx in
  let vy := normalize vy in
  t <- broadcast_shapes [sshape x; sshape y; sshape vx; sshape vy] ;;
  let sh := filter (fun kv => negb (String.eqb (fst kv) axis)) t in
  match dget t axis with
  | None => Err KeyError
  | Some n =>
      let shape_vertices := dset sh axis n in
      x <- na_broadcast_to x sh false ;;
      y <- na_broadcast_to y sh false ;;
      vx <- na_broadcast_to vx shape_vertices false ;;
      vy <- na_broadcast_to vy shape_vertices false ;;
      r <- np_point_in_polygon contains (s_nd x) (s_nd y) (s_nd vx) (s_nd vy) ;;
      mk_sarr r (dkeys sh)
  end.
