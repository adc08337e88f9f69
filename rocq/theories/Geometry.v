(** Model of the geometry of cartesian vector arrays: the vector product and the
    cell volumes of _vectors/cartesian/vectors_cartesian_2d.py and
    vectors_cartesian_3d.py. *)
From Coq Require Import Ascii String List Arith ZArith Bool Lia.
From Verif Require Import Base Numpy Shapes Scalar Elementwise Vector Matrix.
Import ListNotations.
Open Scope nat_scope.
Open Scope list_scope.

(** [slice(None, ~0)] and [slice(+1, None)] *)
Definition lower : pyslice := mkSlice None (Some (-1)%Z) None.
Definition upper : pyslice := mkSlice (Some 1%Z) None None.

(** the four selections of a cell, vectors_cartesian_2d.py:76-81 and
    vectors_cartesian_3d.py:93-98; a repeated axis keeps its last slice *)
Definition corner_items (a1 a2 : string) : list (dict item) :=
  map (fun p => dict_of [(a1, ItSlice (fst p)); (a2, ItSlice (snd p))])
      [(lower, lower); (upper, lower); (upper, upper); (lower, upper)].

Section Geometry.
Context {F : Type} (K : arith F).

(** ** The vector product *)

(** the binary and unary ufuncs on components, which may again be vectors *)
Definition vec2 (f : F -> F -> F) (a b : vec F) : res (vec F) :=
  vec_ufunc (fun l => match l with [x; y] => f x y | _ => zero K end) [a; b].
Definition vec1 (f : F -> F) (a : vec F) : res (vec F) :=
  vec_ufunc (fun l => match l with [x] => f x | _ => zero K end) [a].

(** [p * q - r * s] *)
Definition cross_term (p q r s : vec F) : res (vec F) :=
  x <- vec2 (times K) p q ;; y <- vec2 (times K) r s ;; vec2 (minus K) x y.

(** [cross], vectors_cartesian_3d.py:203-231.  A three-dimensional vector has the
    components x, y and z. *)
Definition cross (a b : vec F) : res (vec F) :=
  match a, b with
  | Node ty cs, Node ty' cs' =>
      if negb (String.eqb ty ty') then Err TypeError else
      if negb (length (cartesian_nd a) =? 3) then Err ValueError else
      if negb (length (cartesian_nd b) =? 3) then Err ValueError else
      match dget cs "x", dget cs "y", dget cs "z", dget cs' "x", dget cs' "y", dget cs' "z" with
      | Some ax, Some ay, Some az, Some bx, Some by_, Some bz =>
          x <- cross_term ay bz az by_ ;; x <- vec1 (fun t => t) x ;;
          y <- cross_term ax bz az bx ;; y <- vec1 (neg K) y ;;
          z <- cross_term ax by_ ay bx ;; z <- vec1 (fun t => t) z ;;
          Ok (Node ty [("x", x); ("y", y); ("z", z)])
      | _, _, _, _, _, _ => Err AttributeError
      end%string
  | _, _ => Err TypeError
  end.

(** ** The area of a cell *)

(** [y[i] * (x[i - 1] - x[(i + 1) % n])] *)
Definition area_term (y before after : sarr F) : res (operand F) :=
  d <- op2 K (minus K) (OpArr before) (OpArr after) ;; op2 K (times K) (OpArr y) d.

(** the loop, vectors_cartesian_2d.py:99-104 *)
Definition shoelace_sum (xs ys : list (sarr F)) : res (operand F) :=
  match xs, ys with
  | [x0; x1; x2; x3], [y0; y1; y2; y3] =>
      t <- area_term y0 x3 x1 ;; r <- op2 K (plus K) (OpNum (zero K)) t ;;
      t <- area_term y1 x0 x2 ;; r <- op2 K (plus K) r t ;;
      t <- area_term y2 x1 x3 ;; r <- op2 K (plus K) r t ;;
      t <- area_term y3 x2 x0 ;; r <- op2 K (plus K) r t ;;
      op2 K (over K) r (OpNum (plus K (one K) (one K)))
  | _, _ => Err ValueError
  end.

(** [volume_cell], vectors_cartesian_2d.py:59-104 *)
Definition volume_cell_2d (v : vec F) (axis : option (list string)) : res (operand F) :=
  sh <- vec_shape v ;;
  axis <- match axis with
          | None => if length sh =? 2 then Ok (dkeys sh) else Err ValueError
          | Some l => Ok l
          end ;;
  if negb (forallb (fun ax => smem ax (dkeys sh)) axis) then Err ValueError else
  match axis with
  | [a1; a2] =>
      w <- vec_broadcast_to v sh ;;
      match w with
      | Node _ cs =>
          match dget cs "x", dget cs "y" with
          | Some (Leaf (OpArr x)), Some (Leaf (OpArr y)) =>
              xs <- mapM (getitem x) (corner_items a1 a2) ;;
              ys <- mapM (getitem y) (corner_items a1 a2) ;;
              shoelace_sum xs ys
          | _, _ => Err TypeError
          end%string
      | Leaf _ => Err TypeError
      end
  | _ => Err ValueError
  end.

(** ** The volume of a cell *)

(** [vol[{ax: s}]]; a number cannot be indexed (a numpy number raises IndexError,
    a quantity TypeError) *)
Definition op_getitem (o : operand F) (it : dict item) : res (operand F) :=
  match o with
  | OpArr a => r <- getitem a it ;; Ok (OpArr r)
  | OpNum _ => Err IndexError
  end.

(** the body of the loop over the triangles, vectors_cartesian_3d.py:103-107 *)
Definition add_triangle (a3 : string) (result : operand F) (t : vec F * vec F * vec F) : res (operand F) :=
  let '(v1, v2, v3) := t in
  c <- cross v2 v3 ;;
  vol <- vec_dot K v1 c ;;
  x <- op_getitem vol [(a3, ItSlice lower)] ;; result <- op2 K (minus K) result x ;;
  x <- op_getitem vol [(a3, ItSlice upper)] ;; op2 K (plus K) result x.

(** the body of the loop over the faces, vectors_cartesian_3d.py:91-107 *)
Definition add_face (v : vec F) (result : operand F) (a : string * string * string) : res (operand F) :=
  let '(a1, a2, a3) := a in
  face <- mapM (fun it => vec_getitem v (map (fun kv => (fst kv, Leaf (snd kv))) it)) (corner_items a1 a2) ;;
  match face with
  | [f0; f1; f2; f3] => foldM (add_triangle a3) [(f0, f1, f2); (f2, f3, f0)] result
  | _ => Err ValueError
  end.

Definition six : F := plus K (one K) (plus K (one K) (plus K (one K) (plus K (one K) (plus K (one K) (one K))))).

(** [volume_cell], vectors_cartesian_3d.py:68-111 *)
Definition volume_cell_3d (v : vec F) (axis : option (list string)) : res (operand F) :=
  sh <- vec_shape v ;;
  axis <- match axis with
          | None => Ok (dkeys sh)
          | Some l => if forallb (fun ax => smem ax (dkeys sh)) l then Ok l else Err ValueError
          end ;;
  match axis with
  | [ax; ay; az] =>
      r <- foldM (add_face v) [(ax, ay, az); (ay, az, ax); (az, ax, ay)] (OpNum (zero K)) ;;
      op2 K (over K) r (OpNum six)
  | _ => Err ValueError
  end.
End Geometry.
