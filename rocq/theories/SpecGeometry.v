(** The vocabulary for geometry: points, signed areas and volumes. *)
From Coq Require Import Ascii String List Arith ZArith Bool Lia.
From Verif Require Import Base Numpy Shapes Scalar Vector Matrix Spec SpecVector SpecMatrix.
Import ListNotations.
Open Scope nat_scope.
Open Scope list_scope.

(** two- and three-dimensional vectors with scalar components *)
Definition xy {A} (ty : string) (x y : operand A) : vec A := Node ty [("x"%string, Leaf x); ("y"%string, Leaf y)].
Definition xyz {A} (ty : string) (x y z : operand A) : vec A :=
  Node ty [("x"%string, Leaf x); ("y"%string, Leaf y); ("z"%string, Leaf z)].

(** the next position along an axis *)
Definition next (ax : string) (e : env) : env := set_env e ax (S (e ax)).

(** the corners of a cell along two axes, in circular order *)
Definition around (a1 a2 : string) (e : env) : list env := [e; next a1 e; next a2 (next a1 e); next a2 e].

(** a walk around a grid of n by m cells *)
Definition boundary (n m : nat) : list (nat * nat) :=
  map (fun i => (i, 0)) (seq 0 n) ++ map (fun j => (n, j)) (seq 0 m) ++
  map (fun i => (n - i, m)) (seq 0 n) ++ map (fun j => (0, m - j)) (seq 0 m).

(** the two triangles of the face of a cell along two axes *)
Definition triangles (a1 a2 : string) (e : env) : list (env * env * env) :=
  [(e, next a1 e, next a2 (next a1 e)); (next a2 (next a1 e), next a2 e, e)].

Definition cyclic (a b c : string) : list (string * string * string) := [(a, b, c); (b, c, a); (c, a, b)].

Definition flip {A} (t : A * A * A) : A * A * A := let '(p, q, r) := t in (r, q, p).

(** the surface of a cell along three axes: the faces at the far end with their
    orientation, the faces at the near end with the opposite one *)
Definition surface (a b c : string) (e : env) : list (env * env * env) :=
  flat_map (fun f => let '(a1, a2, a3) := f in
    map flip (triangles a1 a2 e) ++ triangles a1 a2 (next a3 e)) (cyclic a b c).

(** the surface of a grid of n by m by l cells, seen from the position [e] *)
Definition grid_surface (a b c : string) (n m l : nat) (e : env) : list (env * env * env) :=
  flat_map (fun f => let '(a1, n1, a2, n2, a3, n3) := f in
    flat_map (fun i => flat_map (fun j =>
      let at_ k := set_env (set_env (set_env e a1 i) a2 j) a3 k in
      map flip (triangles a1 a2 (at_ 0)) ++ triangles a1 a2 (at_ n3)) (seq 0 n2)) (seq 0 n1))
    [(a, n, b, m, c, l); (b, m, c, l, a, n); (c, l, a, n, b, m)].

Section Geometry.
Context {F : Type} (K : arith F).

Definition two : F := plus K (one K) (one K).
Definition six_times (x : F) : F := plus K x (plus K x (plus K x (plus K x (plus K x x)))).

(** the sum of a list, and of [f i] for [i < n] *)
Definition total (l : list F) : F := fold_right (plus K) (zero K) l.
Definition sum_to (n : nat) (f : nat -> F) : F := total (map f (seq 0 n)).

(** the point of a vector at a labelled index *)
Definition point2 (x y : operand F) (e : env) : F * F := (op_at x e, op_at y e).
Definition point3 (x y z : operand F) (e : env) : F * F * F := (op_at x e, op_at y e, op_at z e).

(** the signed area of the parallelogram between two vectors *)
Definition wedge (p q : F * F) : F := minus K (times K (fst p) (snd q)) (times K (fst q) (snd p)).

(** the wedges along a path *)
Fixpoint along (p : F * F) (l : list (F * F)) : F :=
  match l with [] => zero K | q :: l' => plus K (wedge p q) (along q l') end.

(** the signed area of a polygon *)
Definition polygon_area (l : list (F * F)) : F :=
  match l with [] => zero K | p :: l' => over K (along p (l' ++ [p])) two end.

(** a translation and a linear map of the plane *)
Definition shift2 (t p : F * F) : F * F := (plus K (fst p) (fst t), plus K (snd p) (snd t)).
Definition linear2 (a b c d : F) (p : F * F) : F * F :=
  (plus K (times K a (fst p)) (times K b (snd p)), plus K (times K c (fst p)) (times K d (snd p))).

(** the determinant of three vectors *)
Definition det (p q r : F * F * F) : F :=
  let '(p1, p2, p3) := p in let '(q1, q2, q3) := q in let '(r1, r2, r3) := r in
  plus K (minus K (times K p1 (minus K (times K q2 r3) (times K q3 r2)))
                  (times K p2 (minus K (times K q1 r3) (times K q3 r1))))
         (times K p3 (minus K (times K q1 r2) (times K q2 r1))).

(** the coordinates of a point *)
Definition coordinates (p : F * F * F) : list F := let '(p1, p2, p3) := p in [p1; p2; p3].

(** the vector product *)
Definition crossed (p q : F * F * F) : F * F * F :=
  let '(p1, p2, p3) := p in let '(q1, q2, q3) := q in
  (minus K (times K p2 q3) (times K p3 q2), minus K (times K p3 q1) (times K p1 q3), minus K (times K p1 q2) (times K p2 q1)).

(** the scalar product *)
Definition scalar3 (p q : F * F * F) : F :=
  let '(p1, p2, p3) := p in let '(q1, q2, q3) := q in plus K (plus K (times K p1 q1) (times K p2 q2)) (times K p3 q3).

(** the linear map with the columns u, v and w *)
Definition linear3 (u v w p : F * F * F) : F * F * F :=
  let '(u1, u2, u3) := u in let '(v1, v2, v3) := v in let '(w1, w2, w3) := w in let '(p1, p2, p3) := p in
  (plus K (plus K (times K u1 p1) (times K v1 p2)) (times K w1 p3),
   plus K (plus K (times K u2 p1) (times K v2 p2)) (times K w2 p3),
   plus K (plus K (times K u3 p1) (times K v3 p2)) (times K w3 p3)).

Definition add3 (p q : F * F * F) : F * F * F :=
  let '(p1, p2, p3) := p in let '(q1, q2, q3) := q in (plus K p1 q1, plus K p2 q2, plus K p3 q3).

(** the sum of the determinants of the triangles of a surface, which is six times
    the signed volume when the surface is closed *)
Definition enclosed (P : env -> F * F * F) (l : list (env * env * env)) : F :=
  total (map (fun t => let '(p, q, r) := t in det (P p) (P q) (P r)) l).

(** six times the signed volume of the tetrahedron with the corner [p] *)
Definition sub3 (p q : F * F * F) : F * F * F :=
  let '(p1, p2, p3) := p in let '(q1, q2, q3) := q in (minus K p1 q1, minus K p2 q2, minus K p3 q3).
Definition tetrahedron (p q r s : F * F * F) : F := det (sub3 q p) (sub3 r p) (sub3 s p).

(** some coordinate is different from zero somewhere in the first corner of the
    triangles of a family, and somewhere in the vector product of the others *)
Definition spread (B : shape) (P : env -> F * F * F) (t : env -> env * env * env) : Prop :=
  exists i e e', inside e B /\ inside e' B /\
    nth i (coordinates (P (fst (fst (t e))))) (zero K) <> zero K /\
    nth i (coordinates (crossed (P (snd (fst (t e')))) (P (snd (t e'))))) (zero K) <> zero K.

(** two operands that are both different from zero somewhere *)
Definition live (x y : operand F) : Prop :=
  (exists e, inside e (op_shape x) /\ op_at x e <> zero K) /\ (exists e, inside e (op_shape y) /\ op_at y e <> zero K).

(** an operand reads [f] at every position of the shape [B] *)
Definition gives (B : shape) (o : operand F) (f : env -> F) : Prop :=
  op_wf o /\ fits_in (op_shape o) B /\ forall e, inside e B -> op_at o e = f e.
End Geometry.

(** the sizes of an operand are sizes of the shape [B] *)
Definition sub_shape (s B : shape) : Prop := forall ax n, In (ax, n) s -> In (ax, n) B.
