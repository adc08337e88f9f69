(** The vocabulary for rotations. *)
From Coq Require Import Ascii String List Arith ZArith Bool Lia.
From Verif Require Import Base Numpy Shapes Scalar Elementwise Vector Matrix Rotation Spec SpecVector SpecMatrix.
Import ListNotations.
Open Scope nat_scope.
Open Scope list_scope.
Local Open Scope string_scope.

(** the coordinates of the space *)
Definition coordinates (k : about) : list string := match k with InPlane => ["x"; "y"] | _ => ["x"; "y"; "z"] end.

(** The plane that is rotated, from its first to its second coordinate: by the
    right hand rule y to z about x, z to x about y, x to y about z. *)
Definition from (k : about) : string := match k with InPlane | AboutZ => "x" | AboutX => "y" | AboutY => "z" end.
Definition to (k : about) : string := match k with InPlane | AboutZ => "y" | AboutX => "z" | AboutY => "x" end.

(** the type of its vectors *)
Definition space_type (k : about) : string := match k with InPlane => "Cartesian2d" | _ => "Cartesian3d" end.

Section Rotated.
Context {A F : Type} (K : arith F).

(** rotation by the angle with cosine [c] and sine [s]; the other coordinate stays *)
Definition rotated (k : about) (c s : F) (V : string -> F) (i : string) : F :=
  if String.eqb i (from k) then minus K (times K c (V (from k))) (times K s (V (to k)))
  else if String.eqb i (to k) then plus K (times K s (V (from k))) (times K c (V (to k)))
  else V i.

(** sums of angles, the cosine and the sine: what is used of trigonometry *)
Definition trigonometric (add : A -> A -> A) (cosine sine : A -> F) : Prop :=
  (forall x, plus K (times K (cosine x) (cosine x)) (times K (sine x) (sine x)) = one K) /\
  (forall x y, cosine (add x y) = minus K (times K (cosine x) (cosine y)) (times K (sine x) (sine y))) /\
  (forall x y, sine (add x y) = plus K (times K (sine x) (cosine y)) (times K (cosine x) (sine y))).

(** the squared length *)
Definition norm2 (l : list string) (V : string -> F) : F := sum_over K l (fun k => times K (V k) (V k)).
End Rotated.
