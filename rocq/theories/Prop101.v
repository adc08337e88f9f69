(** C101: the Fourier transforms of uncertain scalars transform every world. *)
From Coq Require Import String List Arith ZArith Bool Lia.
From Verif Require Import Base Numpy Shapes Scalar Elementwise Fourier Uncertain UncertainFourier
  Spec SpecFourier SpecUncertain SpecUncertainChoice SpecUncertainAlong SpecUncertainJoin UncertainFourierFacts.
Import ListNotations.
Open Scope nat_scope.
Open Scope list_scope.

(** A transform along one axis is that of the line through the nominal values and of the line
    through every sample, also for parts that are stored without the axis. *)
Theorem C101_fft :
  forall (A : Type) (zero : A) (t : transform A) (u : unc A) sh x y m (n : option nat),
  u_wf u -> u_shape u = Ok sh -> In (x, m) sh ->
  let k := match n with Some n => n | None => t_default t m end in
  k <> 0 -> (y = x \/ ~ In y (dkeys sh)) -> y <> axis_distribution ->
  exists rn rd, let r := mkU (OpArr rn) (OpArr rd) in
    u_fft zero t u (x, y) n = Ok r /\ u_wf r /\
    forall w, let T := map (fun kv => if String.eqb (fst kv) x then (y, t_out t k) else kv) (full_shape w (Uncertain u, sh)) in
      In (y, t_out t k) (op_shape (u_part r w)) /\ fits_in (op_shape (u_part r w)) T /\
      forall e, inside (in_world w e) T ->
        u_at (Uncertain r) w e = t_value t k (padded zero (t_in t k) (u_run (Uncertain u) w x m e)) (e y).
Proof. exact @u_fft_spec. Qed.
Print Assumptions C101_fft.

(** An absent axis, a length of zero and a new name that is in use, or that of the samples, are
    refused. *)
Theorem C101_fft_refused :
  forall (A : Type) (zero : A) (t : transform A) (u : unc A) sh x y (n : option nat),
  u_wf u -> u_shape u = Ok sh ->
  ~ In x (dkeys sh) \/
  (exists m, In (x, m) sh /\ match n with Some n => n | None => t_default t m end = 0) \/
  (y <> x /\ In y (dkeys sh)) \/ y = axis_distribution ->
  u_fft zero t u (x, y) n = Err ValueError.
Proof. exact @u_fft_refused. Qed.
Print Assumptions C101_fft_refused.

(** A transform along several axes does the transforms of C76 in every world. *)
Theorem C101_fftn :
  forall (A : Type) (zero : A) (t : ntransform A) (u : unc A) sh (axes : dict string) (s : option (dict nat)) (k : string -> nat) (st : list (stage A)),
  u_wf u -> u_shape u = Ok sh ->
  NoDup (dkeys axes) -> incl (dkeys axes) (dkeys sh) -> NoDup (map (renamed axes) (axis_distribution :: dkeys sh)) ->
  (forall ax, In ax (dkeys axes) -> k ax <> 0 /\ match s with Some s => dget s ax = Some (k ax) | None => In (ax, k ax) sh end) ->
  (forall d ax, s = Some d -> In ax (dkeys d) -> In ax (dkeys axes)) ->
  stages t (map (fun ax => (ax, k ax)) (dkeys axes)) st ->
  exists rn rd, let r := mkU (OpArr rn) (OpArr rd) in
    u_fftn zero t u axes s = Ok r /\ u_wf r /\
    forall w, let T := full_shape w (Uncertain u, sh) in
      (forall x n, In x (dkeys axes) -> In (x, n) (spectra_shape st T) -> In (renamed axes x, n) (op_shape (u_part r w))) /\
      fits_in (op_shape (u_part r w)) (map (fun kv => (renamed axes (fst kv), snd kv)) (spectra_shape st T)) /\
      forall e, inside (in_world w e) (map (fun kv => (renamed axes (fst kv), snd kv)) (spectra_shape st T)) ->
        u_at (Uncertain r) w e = spectra zero st T (u_at (Uncertain u) w) (fun ax => e (renamed axes ax)).
Proof. exact @u_fftn_spec. Qed.
Print Assumptions C101_fftn.

(** Absent axes and lengths for other axes are refused. *)
Theorem C101_fftn_refused :
  forall (A : Type) (zero : A) (t : ntransform A) (u : unc A) sh (axes : dict string) (s : option (dict nat)),
  u_wf u -> u_shape u = Ok sh ->
  ~ incl (dkeys axes) (dkeys sh) \/ (exists d, s = Some d /\ exists ax, ~ (In ax (dkeys d) <-> In ax (dkeys axes))) ->
  u_fftn zero t u axes s = Err ValueError.
Proof. exact @u_fftn_refused. Qed.
Print Assumptions C101_fftn_refused.

Open Scope string_scope.

(** an integer stand-in for a transform: the sum of [(i + 1) ^ k] times the elements *)
Definition moments (n : nat) (l : list Z) (k : nat) : Z :=
  fold_right Z.add 0%Z (map (fun p => (fst p ^ Z.of_nat k * snd p)%Z) (combine (map (fun i => Z.of_nat (i + 1)) (seq 0 n)) l)).
Definition complex : transform Z := mkT (fun m => m) (fun n => n) (fun n => n) moments.

Definition arr (l : list Z) (s : list nat) (axes : list string) : operand Z := OpArr (mkS (of_list 0%Z s l) axes).
Definition ex_u : unc Z := mkU (arr [5; 1; 9]%Z [3] ["t"]) (arr [2; 3; 4; 5]%Z [2; 2] ["_distribution"; "b"]).

Example ex_u_wf : u_wf ex_u /\ u_shape ex_u = Ok [("t", 3); ("b", 2)].
Proof.
  split; [|reflexivity]. split; [split; [repeat constructor; cbn; intuition discriminate|reflexivity]|].
  split; [split; [repeat constructor; cbn; intuition discriminate|reflexivity]|]. cbn. intuition discriminate.
Qed.

Definition show (r : res (unc Z)) : res ((shape * list Z) * (shape * list Z)) :=
  match r with
  | Ok u => let f o := (sshape (normalize o), ravel (s_nd (normalize o))) in Ok (f (u_nominal u), f (u_distribution u))
  | Err e => Err e
  end.

(** the distribution, which is constant along [t], is transformed like the others *)
Example C101_fft_example :
  show (u_fft 0%Z complex ex_u ("t", "f") (Some 2)) = Ok ([("f", 2)], [6%Z; 7%Z], ([("_distribution", 2); ("b", 2); ("f", 2)], [4%Z; 6%Z; 6%Z; 9%Z; 8%Z; 12%Z; 10%Z; 15%Z])) /\
  show (u_fft 0%Z complex ex_u ("b", "b") None) = Ok ([("t", 3); ("b", 2)], [10%Z; 15%Z; 2%Z; 3%Z; 18%Z; 27%Z], ([("_distribution", 2); ("b", 2)], [5%Z; 8%Z; 9%Z; 14%Z])).
Proof. split; vm_compute; reflexivity. Qed.

Example C101_fftn_example :
  NoDup (map (renamed [("t", "b"); ("b", "t")]) (axis_distribution :: ["t"; "b"])) /\
  show (u_fftn 0%Z (NComplex complex) ex_u [("t", "b"); ("b", "t")] (Some [("b", 1); ("t", 2)])) = Ok ([("b", 2); ("t", 1)], [6%Z; 7%Z], ([("_distribution", 2); ("t", 1); ("b", 2)], [4%Z; 6%Z; 8%Z; 12%Z])).
Proof. split; [repeat constructor; cbn; intuition discriminate|vm_compute; reflexivity]. Qed.

Example C101_refused_example :
  u_fft 0%Z complex ex_u ("t", "b") None = Err ValueError /\ u_fft 0%Z complex ex_u ("z", "f") None = Err ValueError /\
  u_fft 0%Z complex ex_u ("t", "f") (Some 0) = Err ValueError /\ u_fft 0%Z complex ex_u ("_distribution", "f") None = Err ValueError /\
  u_fft 0%Z complex ex_u ("t", "_distribution") None = Err ValueError /\
  u_fft 0%Z complex (mkU (u_nominal ex_u) (OpNum 3%Z)) ("t", "_distribution") None = Err ValueError /\
  u_fftn 0%Z (NComplex complex) ex_u [("t", "f")] (Some [("b", 2)]) = Err ValueError /\
  u_fftn 0%Z (NComplex complex) ex_u [("z", "f")] None = Err ValueError.
Proof. repeat split; vm_compute; reflexivity. Qed.
