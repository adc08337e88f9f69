(** C68: [na.interp] interpolates along a named axis. *)
From Coq Require Import String List Arith ZArith Bool Lia QArith Qcanon.
From Verif Require Import Base BaseFacts Numpy Shapes Scalar Elementwise Derived Interp Hist InterpAxis
  Spec SpecNumeric SpecInterp InterpAxisFacts.
Import ListNotations.
Open Scope nat_scope.
Open Scope list_scope.

(** The result has the broadcast shape of the points [x] and of everything else
    without the axis, and at every position the value is that of the line of
    samples at this position, whatever numpy's one-dimensional [itp] is, stored
    with the data type of the samples.  Missing from the full statement: an axis of
    [x] of another size than 1 where all others have size 1, see below. *)
Theorem C68_interp_partial :
  forall (A B C : Type) (zero : A -> bool) (itp : list A -> list B -> option C -> option C -> option A -> A -> C)
         (cast : C -> B) (junk : B) (x xp : operand A) (fp : operand B) (left right : option (operand C))
         (period : option (operand A)) (ax : string) (n : nat) (S T : shape),
  op_wf x -> op_wf xp -> op_wf fp -> opt_operand_wf left -> opt_operand_wf right -> opt_operand_wf period ->
  In (ax, n) (op_shape xp) -> In (ax, n) (op_shape fp) -> n <> 0 ->
  broadcast_shapes ([without (op_shape xp) [ax]; without (op_shape fp) [ax]] ++ opt_operand_shape left
                    ++ opt_operand_shape right ++ opt_operand_shape period) = Ok S ->
  ~ In ax (dkeys S) -> broadcast_shapes [op_shape x; S] = Ok T ->
  (forall k a s, In (k, a) (op_shape x) -> In (k, s) S -> a = 1 \/ a = s) ->
  (forall e p, inside e S -> opt_at period e = Some p -> zero p = false) ->
  exists r, na_interp zero itp cast junk x xp fp (Some ax) left right period = Ok r /\ wf r /\ sshape r = T /\
    forall e, inside e T -> at_ r e = cast (itp (samples xp ax n e) (samples fp ax n e)
                                             (opt_at left e) (opt_at right e) (opt_at period e) (op_at x e)).
Proof.
  intros A B C zero itp cast junk x xp fp left right period ax n S T Wx Wxp Wfp Wl Wr Wp Hxp Hfp Hn ES HS ET Hx Hz.
  exact (interp_ok zero itp cast junk x xp fp left right period ax n n S T Wx Wxp Wfp Wl Wr Wp Hxp Hfp Hn Hn ES HS ET eq_refl Hx Hz).
Qed.
Print Assumptions C68_interp_partial.

(** Points and values of different number are refused. *)
Theorem C68_lengths :
  forall (A B C : Type) (zero : A -> bool) (itp : list A -> list B -> option C -> option C -> option A -> A -> C)
         (cast : C -> B) (junk : B) (x xp : operand A) (fp : operand B) (left right : option (operand C))
         (period : option (operand A)) (ax : string) (n m : nat) (S T : shape),
  op_wf x -> op_wf xp -> op_wf fp -> opt_operand_wf left -> opt_operand_wf right -> opt_operand_wf period ->
  In (ax, n) (op_shape xp) -> In (ax, m) (op_shape fp) -> n <> 0 -> m <> 0 ->
  broadcast_shapes ([without (op_shape xp) [ax]; without (op_shape fp) [ax]] ++ opt_operand_shape left
                    ++ opt_operand_shape right ++ opt_operand_shape period) = Ok S ->
  ~ In ax (dkeys S) -> broadcast_shapes [op_shape x; S] = Ok T -> n <> m ->
  (forall k a s, In (k, a) (op_shape x) -> In (k, s) S -> a = 1 \/ a = s) ->
  (forall k s, In (k, s) S -> s <> 0) ->
  na_interp zero itp cast junk x xp fp (Some ax) left right period = Err ValueError.
Proof.
  intros A B C zero itp cast junk x xp fp left right period ax n m S T Wx Wxp Wfp Wl Wr Wp Hxp Hfp Hn Hm ES HS ET D Hx Hs.
  exact (interp_lengths zero itp cast junk x xp fp left right period ax n m S T Wx Wxp Wfp Wl Wr Wp Hxp Hfp Hn Hm ES HS ET D Hx Hs).
Qed.
Print Assumptions C68_lengths.

(** Without [axis] the points [xp] must have exactly one axis, which is used. *)
Theorem C68_axis :
  forall (A B C : Type) (zero : A -> bool) (itp : list A -> list B -> option C -> option C -> option A -> A -> C)
         (cast : C -> B) (junk : B) (x : operand A) (xp : sarr A) (fp : operand B) (left right : option (operand C))
         (period : option (operand A)),
  (forall ax, s_axes xp = [ax] ->
     na_interp zero itp cast junk x (OpArr xp) fp None left right period
     = na_interp zero itp cast junk x (OpArr xp) fp (Some ax) left right period) /\
  (length (s_axes xp) <> 1 -> na_interp zero itp cast junk x (OpArr xp) fp None left right period = Err ValueError).
Proof. exact (fun A B C => interp_axis). Qed.
Print Assumptions C68_axis.

Open Scope string_scope.

(** linear interpolation of one point, as [np.interp] without a period *)
Fixpoint segments (xp fp : list Qc) (x : Qc) : Qc :=
  match xp, fp with
  | a :: ((b :: _) as xs), c :: ((d :: _) as ys) =>
      if qc_leb x b then (c + (d - c) / (b - a) * (x - a))%Qc else segments xs ys x
  | _, c :: _ => c
  | _, _ => 0%Qc
  end.

Definition linear (xp fp : list Qc) (left right : option Qc) (period : option Qc) (x : Qc) : Qc :=
  let pick o d := match o with Some v => v | None => d end in
  if qc_ltb x (hd 0%Qc xp) then pick left (hd 0%Qc fp)
  else if qc_ltb (last xp 0%Qc) x then pick right (last fp 0%Qc)
  else segments xp fp x.

Definition is_zero (x : Qc) : bool := qc_eqb x 0%Qc.
Definition qs (l : list Q) : list Qc := map Q2Qc l.
Definition show (r : res (sarr Qc)) : option (shape * list Q) :=
  match r with Ok a => Some (sshape a, map this (ravel (s_nd a))) | Err _ => None end.

Definition ex_x : sarr Qc := mkS (of_list 0%Qc [2; 2] (qs [0.5; 1;  3; 9]%Q)) ["p"; "t"].
Definition ex_xp : sarr Qc := mkS (of_list 0%Qc [3] (qs [0; 2; 4]%Q)) ["w"].
Definition ex_fp : sarr Qc := mkS (of_list 0%Qc [2; 3] (qs [0; 10; 30;  1; 1; 5]%Q)) ["t"; "w"].

(** Two values for every [t], which the samples depend on and the points do not. *)
Example C68_example :
  show (na_interp is_zero linear (fun v => v) (qint 77) (OpArr ex_x) (OpArr ex_xp) (OpArr ex_fp) (Some "w")
          None (Some (OpNum (Q2Qc (-1)%Q))) None)
  = Some ([("p", 2); ("t", 2)], [(5 # 2)%Q; 1%Q; 20%Q; (-1)%Q]).
Proof. vm_compute. reflexivity. Qed.

Example C68_applies :
  op_wf (OpArr ex_x) /\ op_wf (OpArr ex_xp) /\ op_wf (OpArr ex_fp) /\ In ("w", 3) (op_shape (OpArr ex_xp)) /\
  In ("w", 3) (op_shape (OpArr ex_fp)) /\
  broadcast_shapes ([without (op_shape (OpArr ex_xp)) ["w"]; without (op_shape (OpArr ex_fp)) ["w"]]
                    ++ opt_operand_shape (@None (operand Qc)) ++ opt_operand_shape (Some (OpNum (Q2Qc (-1)%Q)))
                    ++ opt_operand_shape (@None (operand Qc)))%list = Ok [("t", 2)] /\
  ~ In "w" (dkeys [("t", 2)]) /\
  broadcast_shapes [op_shape (OpArr ex_x); [("t", 2)]] = Ok [("p", 2); ("t", 2)] /\
  (forall k a s, In (k, a) (op_shape (OpArr ex_x)) -> In (k, s) [("t", 2)] -> a = 1 \/ a = s) /\
  forall e p, inside e [("t", 2)] -> opt_at (@None (operand Qc)) e = Some p -> is_zero p = false.
Proof.
  assert (W : forall (n : nd Qc) l, NoDup l -> length l = length (nshape n) -> op_wf (OpArr (mkS n l))) by (intros; split; auto).
  do 3 (split; [apply W; [repeat (constructor; [simpl; intuition discriminate|]); constructor|reflexivity]|]).
  do 2 (split; [simpl; auto|]). split; [reflexivity|]. split; [simpl; intuition discriminate|]. split; [reflexivity|].
  split; [|intros e p _ H; discriminate].
  intros k a s H [E|[]]. injection E as <- <-. simpl in H. destruct H as [H|[H|[]]]; [discriminate|]. injection H as <-. auto.
Qed.

(** Samples that have the axis [t] with size 1, points that have it with size 3:
    the loop runs over the shape of the samples only, so that two of the three
    values are never calculated, and are whatever the memory contained. *)
Definition ex_x3 : sarr Qc := mkS (of_list 0%Qc [3] (qs [1; 1; 1]%Q)) ["t"].
Definition ex_fp1 : sarr Qc := mkS (of_list 0%Qc [1; 3] (qs [0; 10; 30]%Q)) ["t"; "w"].

Theorem C68_uninitialised_refuted :
  forall junk : Qc, exists r,
  na_interp is_zero linear (fun v => v) junk (OpArr ex_x3) (OpArr ex_xp) (OpArr ex_fp1) (Some "w") None None None = Ok r /\
  sshape r = [("t", 3)] /\ this (at_ r (fun _ => 0)) = 5%Q /\ at_ r (fun _ => 1) = junk /\ at_ r (fun _ => 2) = junk /\
  this (linear (samples (OpArr ex_xp) "w" 3 (fun _ => 1)) (samples (OpArr ex_fp1) "w" 3 (fun _ => 1)) None None None
          (op_at (OpArr ex_x3) (fun _ => 1))) = 5%Q.
Proof.
  intros junk. eexists. split; [reflexivity|]. split; [reflexivity|]. split; [vm_compute; reflexivity|].
  split; [reflexivity|]. split; [reflexivity|]. vm_compute. reflexivity.
Qed.
Print Assumptions C68_uninitialised_refuted.

(** The result has the data type of [fp]: between the integers 0 and 1 it is 0
    instead of 1/2, although [np.interp] itself gives 1/2. *)
Definition truncate (v : Qc) : Z := Z.quot (Qnum (this v)) (Zpos (Qden (this v))).
Definition linear_int (xp : list Qc) (fp : list Z) := linear xp (map qint fp).
Definition ex_fpi : sarr Z := mkS (of_list 0%Z [2] [0%Z; 1%Z]) ["w"].
Definition ex_xpi : sarr Qc := mkS (of_list 0%Qc [2] (qs [0; 2]%Q)) ["w"].

Theorem C68_integers_refuted :
  match na_interp is_zero linear_int truncate 77%Z (OpNum 1%Qc) (OpArr ex_xpi) (OpArr ex_fpi) None None None None with
  | Ok r => (sshape r, ravel (s_nd r)) = ([], [0%Z])
  | Err _ => False
  end /\
  this (linear_int (samples (OpArr ex_xpi) "w" 2 (fun _ => 0)) (samples (OpArr ex_fpi) "w" 2 (fun _ => 0)) None None None 1%Qc) = (1 # 2)%Q.
Proof. split; vm_compute; reflexivity. Qed.
Print Assumptions C68_integers_refuted.

(** Samples that do not depend on the axis are refused as well, since they are not
    repeated along it. *)
Theorem C68_constant_refuted :
  na_interp is_zero linear (fun v => v) (qint 77) (OpNum 1%Qc) (OpArr ex_xp) (OpNum (qint 5)) None None None None = Err ValueError.
Proof. vm_compute. reflexivity. Qed.
Print Assumptions C68_constant_refuted.
