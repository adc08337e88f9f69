(** C94: Fourier transforms of vectors. *)
From Coq Require Import String List Arith ZArith Bool Lia.
From Verif Require Import Base Numpy Shapes Scalar Elementwise Vector Fourier VectorFourier Spec SpecVector SpecVectorReduce SpecMatrix SpecFourier.
From Verif Require VectorFourierFacts.
Import ListNotations.
Open Scope nat_scope.
Open Scope list_scope.

(** [np.fft.fft(v, axis=(x, y), n=n)] and its variants: the result is a vector like [v], whose
    scalars are the transforms of the lines along [x] of the broadcast scalars of [v].  [T] is the
    shape of [v], [m] the size of [x] in it. *)
Theorem C94_fft :
  forall (A : Type) (zero : A) (t : transform A) (ty : string) (cs : list (string * vec A)) (T : shape) (x y : string) (m : nat) (n : option nat),
  let v := Node ty cs in
  vec_wf v -> filled v -> joint (map op_shape (leaves v)) T -> In (x, m) T ->
  let k := match n with Some n => n | None => t_default t m end in
  k <> 0 -> (y = x \/ ~ In y (dkeys T)) ->
  exists r, vec_fft zero t v (x, y) n = Ok r /\ (forall p, kind r p = kind v p) /\
    forall p, match leaf_at v p with
              | None => leaf_at r p = None
              | Some o => exists b, leaf_at r p = Some (OpArr b) /\ wf b /\ In (y, t_out t k) (sshape b) /\
                  fits_in (sshape b) (map (fun kv => if String.eqb (fst kv) x then (y, t_out t k) else kv) T) /\
                  forall e, inside e (map (fun kv => if String.eqb (fst kv) x then (y, t_out t k) else kv) T) ->
                    bat b e = t_value t k (padded zero (t_in t k) (map (fun i => op_at o (set_env e x i)) (seq 0 m))) (e y)
              end.
Proof. exact @VectorFourierFacts.vec_fft_values. Qed.
Print Assumptions C94_fft.

(** An axis that no component has, a length of zero, and a new name that some component uses are
    refused. *)
Theorem C94_fft_refused :
  forall (A : Type) (zero : A) (t : transform A) (ty : string) (cs : list (string * vec A)) (T : shape) (x y : string) (n : option nat),
  let v := Node ty cs in
  vec_wf v -> filled v -> joint (map op_shape (leaves v)) T ->
  ~ In x (dkeys T) \/
  (exists m, In (x, m) T /\ match n with Some n => n | None => t_default t m end = 0) \/
  (y <> x /\ In y (dkeys T)) ->
  vec_fft zero t v (x, y) n = Err ValueError.
Proof. exact @VectorFourierFacts.vec_fft_refused. Qed.
Print Assumptions C94_fft_refused.

(** [np.fft.fftn(v, axes=axes, s=s)] and its variants; the default of [s] is the sizes in [v]. *)
Theorem C94_fftn :
  forall (A : Type) (zero : A) (w : ntransform A) (ty : string) (cs : list (string * vec A)) (T : shape) (axes : dict string) (s : option (dict nat))
         (k : string -> nat) (st : list (stage A)),
  let v := Node ty cs in
  vec_wf v -> filled v -> joint (map op_shape (leaves v)) T ->
  NoDup (dkeys axes) -> incl (dkeys axes) (dkeys T) -> NoDup (map (renamed axes) (dkeys T)) ->
  (forall ax, In ax (dkeys axes) -> k ax <> 0 /\
     match s with Some s => dget s ax = Some (k ax) | None => In (ax, k ax) T end) ->
  (forall d ax, s = Some d -> In ax (dkeys d) -> In ax (dkeys axes)) ->
  stages w (map (fun ax => (ax, k ax)) (dkeys axes)) st ->
  exists r, vec_fftn zero w v axes s = Ok r /\ (forall p, kind r p = kind v p) /\
    forall p, match leaf_at v p with
              | None => leaf_at r p = None
              | Some o => exists b, leaf_at r p = Some (OpArr b) /\ wf b /\
                  (forall x n, In x (dkeys axes) -> In (x, n) (spectra_shape st T) -> In (renamed axes x, n) (sshape b)) /\
                  fits_in (sshape b) (map (fun kv => (renamed axes (fst kv), snd kv)) (spectra_shape st T)) /\
                  forall e, inside e (map (fun kv => (renamed axes (fst kv), snd kv)) (spectra_shape st T)) ->
                    bat b e = spectra zero st T (op_at o) (fun ax => e (renamed axes ax))
              end.
Proof. exact @VectorFourierFacts.vec_fftn_values. Qed.
Print Assumptions C94_fftn.

Theorem C94_fftn_refused :
  forall (A : Type) (zero : A) (w : ntransform A) (ty : string) (cs : list (string * vec A)) (T : shape) (axes : dict string) (s : option (dict nat)),
  let v := Node ty cs in
  vec_wf v -> filled v -> joint (map op_shape (leaves v)) T ->
  ~ incl (dkeys axes) (dkeys T) \/ (exists d, s = Some d /\ exists ax, ~ (In ax (dkeys d) <-> In ax (dkeys axes))) ->
  vec_fftn zero w v axes s = Err ValueError.
Proof. exact @VectorFourierFacts.vec_fftn_refused. Qed.
Print Assumptions C94_fftn_refused.

(** Components that do not broadcast are refused. *)
Theorem C94_conflict :
  forall (A : Type) (zero : A) (ty : string) (cs : list (string * vec A)),
  let v := Node ty cs in
  vec_wf v -> filled v -> (forall T, ~ joint (map op_shape (leaves v)) T) ->
  (forall t axis n, vec_fft zero t v axis n = Err ValueError) /\ (forall w axes s, vec_fftn zero w v axes s = Err ValueError).
Proof.
  exact (fun A zero ty cs W F No => conj (fun t axis n => VectorFourierFacts.along_conflict [fst axis] _ ty cs W F No)
                                        (fun w axes s => VectorFourierFacts.along_conflict (dkeys axes) _ ty cs W F No)).
Qed.
Print Assumptions C94_conflict.

Open Scope string_scope.

(** ** Examples *)

(** an integer stand-in for a transform: the sum of [(i + 1) ^ k] times the elements *)
Definition moments (n : nat) (l : list Z) (k : nat) : Z :=
  fold_right Z.add 0%Z (map (fun p => (fst p ^ Z.of_nat k * snd p)%Z) (combine (map (fun i => Z.of_nat (i + 1)) (seq 0 n)) l)).
Definition complex : transform Z := mkT (fun m => m) (fun n => n) (fun n => n) moments.

Fixpoint show (v : vec Z) : tree (shape * list Z) :=
  match v with
  | Leaf o => Leaf (sshape (normalize o), ravel (s_nd (normalize o)))
  | Node ty cs => Node ty (map (fun kv => (fst kv, show (snd kv))) cs)
  end.
Definition shows (r : res (vec Z)) : res (tree (shape * list Z)) :=
  match r with Ok v => Ok (show v) | Err e => Err e end.

Definition ex_x : operand Z := OpArr (mkS (of_list 0%Z [3] [5; 1; 9]%Z) ["t"]).
Definition ex_y : operand Z := OpArr (mkS (of_list 0%Z [2; 3] [4; 6; 2; 8; 7; 3]%Z) ["b"; "t"]).
Definition ex_v : vec Z := Node "SpectralPositionalVectorArray" [("wavelength", Leaf (OpNum 7%Z));
  ("position", Node "Cartesian2dVectorArray" [("x", Leaf ex_x); ("y", Leaf ex_y)])].

Example ex_wf : vec_wf ex_v.
Proof.
  constructor; [repeat constructor; cbn; intuition discriminate|]. intros c x [H|[H|[]]]; injection H as <- <-; constructor; cbn; auto.
  - repeat constructor; cbn; intuition discriminate.
  - intros c x [H|[H|[]]]; injection H as <- <-; constructor; (split; [repeat constructor; cbn; intuition discriminate|reflexivity]).
Qed.

Example ex_joint : joint (map op_shape (leaves ex_v)) [("b", 2); ("t", 3)].
Proof.
  split; [repeat constructor; cbn; intuition discriminate|]. split.
  - intros s [<- |[<- |[<- |[]]]] ax n H; cbn in H; [contradiction| |]; exists n; cbn; intuition.
  - intros ax n H. exists [("b", 2); ("t", 3)]. split; [right; right; left; reflexivity|exact H].
Qed.

(* a number is repeated along the axis; the wavelength only gets the axis that is transformed, a
   vector inside the vector is broadcast to its own shape as well *)
Example ex_fft :
  shows (vec_fft 0%Z complex ex_v ("t", "f") (Some 2)) = Ok (Node "SpectralPositionalVectorArray"
    [("wavelength", Leaf ([("f", 2)], [14; 21]%Z));
     ("position", Node "Cartesian2dVectorArray" [("x", Leaf ([("f", 2); ("b", 2)], [6; 6; 7; 7]%Z)); ("y", Leaf ([("f", 2); ("b", 2)], [10; 15; 16; 22]%Z))])]) /\
  shows (vec_fft 0%Z complex ex_v ("b", "f") None) = Ok (Node "SpectralPositionalVectorArray"
    [("wavelength", Leaf ([("f", 2)], [14; 21]%Z));
     ("position", Node "Cartesian2dVectorArray" [("x", Leaf ([("t", 3); ("f", 2)], [10; 15; 2; 3; 18; 27]%Z)); ("y", Leaf ([("t", 3); ("f", 2)], [12; 20; 13; 20; 5; 8]%Z))])]).
Proof. split; vm_compute; reflexivity. Qed.

(* the axes exchange their names *)
Example ex_fftn :
  shows (vec_fftn 0%Z (NComplex complex) ex_v [("t", "b"); ("b", "t")] (Some [("b", 1); ("t", 2)])) = Ok (Node "SpectralPositionalVectorArray"
    [("wavelength", Leaf ([("b", 2); ("t", 1)], [14; 21]%Z));
     ("position", Node "Cartesian2dVectorArray" [("x", Leaf ([("b", 2); ("t", 1)], [6; 7]%Z)); ("y", Leaf ([("b", 2); ("t", 1)], [10; 16]%Z))])]).
Proof. vm_compute. reflexivity. Qed.

Example ex_refused :
  vec_fft 0%Z complex ex_v ("t", "b") None = Err ValueError /\ vec_fft 0%Z complex ex_v ("z", "f") None = Err ValueError /\
  vec_fft 0%Z complex ex_v ("t", "f") (Some 0) = Err ValueError /\
  vec_fftn 0%Z (NComplex complex) ex_v [("t", "f")] (Some [("b", 2)]) = Err ValueError.
Proof. repeat split; vm_compute; reflexivity. Qed.
