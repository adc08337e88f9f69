(** C97: copyto and clip of uncertain scalars act in every world. *)
From Coq Require Import String List Arith ZArith Bool Lia.
From Verif Require Import Base Numpy Shapes Scalar Elementwise Uncertain UncertainChoice Spec SpecUncertain SpecUncertainChoice UncertainChoiceFacts.
Import ListNotations.
Open Scope nat_scope.
Open Scope list_scope.

(** Partial: with a mask that is not uncertain, for parts that are stored in
    arrays.  A distribution that does not fit is refused after the nominal values
    have been written. *)
Theorem C97_copyto_partial :
  forall (A : Type) (truth : option (A -> bool)) (n d : sarr A) (src : uop A) (w : operand bool),
  let dst := mkU (OpArr n) (OpArr d) in
  u_wf dst -> uop_wf src -> op_wf w ->
  let fits_n := op_fits (nominal_of src) (sshape n) /\ op_fits w (sshape n) in
  let fits_d := op_fits (distribution_of src) (sshape d) /\ op_fits w (sshape d) in
  (fits_n -> fits_d ->
   exists n' d', let r := mkU (OpArr n') (OpArr d') in
     u_copyto truth dst src (Certain w) = (r, None) /\ u_wf r /\ sshape n' = sshape n /\ sshape d' = sshape d /\
     forall wld e, u_inside dst wld e ->
       u_at (Uncertain r) wld e = if op_at w e then u_at src wld e else u_at (Uncertain dst) wld e) /\
  (~ fits_n -> u_copyto truth dst src (Certain w) = (dst, Some ValueError)) /\
  (fits_n -> ~ fits_d ->
   exists n', u_copyto truth dst src (Certain w) = (mkU (OpArr n') (OpArr d), Some ValueError) /\ wf n' /\ sshape n' = sshape n /\
     forall e, at_ n' e = if op_at w e then op_at (nominal_of src) e else at_ n e).
Proof. exact @u_copyto_spec. Qed.
Print Assumptions C97_copyto_partial.

(** A part that is a number is replaced by that of the source, whatever the mask. *)
Theorem C97_copyto_number_refuted :
  forall (A : Type) (truth : option (A -> bool)) (dst : unc A) (src : uop A) (w : operand bool),
  (forall x, u_nominal dst = OpNum x -> u_nominal (fst (u_copyto truth dst src (Certain w))) = nominal_of src) /\
  (forall x, u_distribution dst = OpNum x -> snd (u_copyto truth dst src (Certain w)) = None ->
     u_distribution (fst (u_copyto truth dst src (Certain w))) = distribution_of src).
Proof. exact @u_copyto_number. Qed.
Print Assumptions C97_copyto_number_refuted.

(** An uncertain mask is never looked at. *)
Theorem C97_copyto_mask_refuted :
  forall (A : Type) (truth : option (A -> bool)) (dst : unc A) (src : uop A) (w w' : unc bool),
  u_copyto truth dst src (Uncertain w) = u_copyto truth dst src (Uncertain w').
Proof. exact @u_copyto_mask_ignored. Qed.
Print Assumptions C97_copyto_mask_refuted.

Theorem C97_copyto_mask_declined_refuted :
  forall (A : Type) (truth : option (A -> bool)) (dst : unc A) (src : operand A) (w : unc bool),
  u_copyto truth dst (Certain src) (Uncertain w) = (dst, Some TypeError).
Proof. exact @u_copyto_mask_declined. Qed.
Print Assumptions C97_copyto_mask_declined_refuted.

(** [np.clip(a, lo, hi)] clips in every world, for any functions [minimum] and
    [maximum].  (Partial: the bounds must fit into [a], part by part.) *)
Theorem C97_clip_partial :
  forall (A : Type) (minimum maximum : A -> A -> A) (a : uop A) (lo hi : option (uop A)),
  uop_wf a -> sample_free a ->
  match lo with Some b => uop_wf b /\ sample_free b | None => True end ->
  match hi with Some b => uop_wf b /\ sample_free b | None => True end ->
  let ok := forall b, lo = Some b \/ hi = Some b -> u_fits b a in
  (ok -> exists r, u_clip minimum maximum a lo hi = Ok r /\ u_wf r /\
     op_shape (u_nominal r) = op_shape (nominal_of a) /\ op_shape (u_distribution r) = op_shape (distribution_of a) /\
     forall w e, u_inside r w e -> u_at (Uncertain r) w e =
       let v := match lo with Some b => maximum (u_at a w e) (u_at b w e) | None => u_at a w e end in
       match hi with Some b => minimum v (u_at b w e) | None => v end) /\
  (~ ok -> u_clip minimum maximum a lo hi = Err ValueError).
Proof. exact @u_clip_spec. Qed.
Print Assumptions C97_clip_partial.

(** A scalar array that has the axis of the samples is refused. *)
Theorem C97_clip_named :
  forall (A : Type) (minimum maximum : A -> A -> A) (a : uop A) (lo hi : option (uop A)),
  ~ sample_free a -> u_clip minimum maximum a lo hi = Err ValueError.
Proof. exact @u_clip_named. Qed.
Print Assumptions C97_clip_named.

(** An array without uncertainty cannot be clipped by a bound with samples. *)
Theorem C97_clip_certain_refuted :
  forall (A : Type) (minimum maximum : A -> A -> A) (a : operand A) (b : unc A) (hi : option (uop A)),
  op_wf a -> ~ In axis_distribution (dkeys (op_shape a)) -> u_wf b -> In axis_distribution (dkeys (op_shape (u_distribution b))) ->
  match hi with Some b => uop_wf b /\ sample_free b | None => True end ->
  u_clip minimum maximum (Certain a) (Some (Uncertain b)) hi = Err ValueError.
Proof. exact @u_clip_certain. Qed.
Print Assumptions C97_clip_certain_refuted.

Open Scope string_scope.

Definition arr (l : list Z) (s : list nat) (axes : list string) : operand Z := OpArr (mkS (of_list 0%Z s l) axes).
Definition mask (l : list bool) (s : list nat) (axes : list string) : operand bool := OpArr (mkS (of_list false s l) axes).

Definition ex_u : unc Z := mkU (arr [1; 2]%Z [2] ["x"]) (arr [1; 2; 3; 4]%Z [2; 2] ["_distribution"; "x"]).
Definition ex_s : unc Z := mkU (OpNum 9%Z) (arr [8; 7]%Z [2] ["_distribution"]).

(** the values of the parts of the result *)
Definition values (o : operand Z) : list Z := match o with OpArr a => ravel (s_nd a) | OpNum x => [x] end.

Example C97_copyto_example :
  let r := u_copyto None ex_u (Uncertain ex_s) (Certain (mask [true; false] [2] ["x"])) in
  u_wf ex_u /\ snd r = None /\ values (u_nominal (fst r)) = [9; 2]%Z /\ values (u_distribution (fst r)) = [8; 2; 7; 4]%Z.
Proof.
  split; [|repeat split; reflexivity].
  split; [split; [repeat constructor; cbn; intuition discriminate|reflexivity]|].
  split; [split; [repeat constructor; cbn; intuition discriminate|reflexivity]|]. cbn. intuition discriminate.
Qed.

(** the nominal values are written before the distribution is refused *)
Example C97_copyto_half_example :
  let r := u_copyto None ex_u (Uncertain (mkU (OpNum 9%Z) (arr [8; 7]%Z [2] ["y"]))) (Certain (OpNum true)) in
  snd r = Some ValueError /\ values (u_nominal (fst r)) = [9; 9]%Z /\ u_distribution (fst r) = u_distribution ex_u.
Proof. repeat split; reflexivity. Qed.

(** a mask that is false everywhere: everything is written, or the source is its own mask *)
Example C97_copyto_mask_example :
  let off := mkU (OpNum false) (OpNum false) in
  let s := mkU (arr [5; 0]%Z [2] ["x"]) (arr [6; 0; 0; 7]%Z [2; 2] ["_distribution"; "x"]) in
  let r := u_copyto None ex_u (Uncertain s) (Uncertain off) in
  let r' := u_copyto (Some (fun z => negb (z =? 0)%Z)) ex_u (Uncertain s) (Uncertain off) in
  snd r = None /\ values (u_nominal (fst r)) = [5; 0]%Z /\ values (u_distribution (fst r)) = [6; 0; 0; 7]%Z /\
  snd r' = None /\ values (u_nominal (fst r')) = [5; 2]%Z /\ values (u_distribution (fst r')) = [6; 2; 3; 7]%Z.
Proof. repeat split; reflexivity. Qed.

Example C97_clip_example :
  exists r, u_clip Z.min Z.max (Uncertain ex_u) (Some (Certain (OpNum 2%Z))) (Some (Uncertain (mkU (OpNum 1%Z) (arr [3; 2]%Z [2] ["_distribution"])))) = Ok r /\
    values (u_nominal r) = [1; 1]%Z /\ values (u_distribution r) = [2; 2; 2; 2]%Z.
Proof. eexists. repeat split; reflexivity. Qed.

Example C97_clip_number_example :
  exists d, u_clip Z.min Z.max (Uncertain (mkU (OpNum 7%Z) (arr [8; 3]%Z [2] ["_distribution"]))) (Some (Certain (OpNum 4%Z))) (Some (Certain (OpNum 6%Z)))
  = Ok (mkU (OpNum 6%Z) (OpArr d)) /\ ravel (s_nd d) = [6; 4]%Z.
Proof. eexists. split; reflexivity. Qed.
