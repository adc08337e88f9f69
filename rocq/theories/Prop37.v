(** C37: histograms. *)
From Coq Require Import String List Arith ZArith Bool Lia QArith Qcanon.
From Verif Require Import Base BaseFacts Numpy Shapes Scalar Elementwise Reduce Derived Interp Hist Spec SpecNumeric SpecHist
  HistFacts HistTopFacts.
Import ListNotations.
Open Scope nat_scope.
Open Scope list_scope.

(** Numbers of bins without limits.  [histogramdd] makes as many edges as bins
    were requested, from the least to the greatest sample, every cell counts the
    samples (or sums the weights) between its edges, and with at least two edges
    along every axis no sample is lost.  Missing from the full statement: there is
    one cell less than requested, see below. *)
Theorem C37_histogramdd_partial :
  forall (junk : Qc) (ss : list (sarr Qc)) (d : dict nat) (axis : option (list string)) (w : option (sarr Qc)) (sh : shape),
  ss <> [] -> Forall wf ss -> opt_wf w -> broadcast_shapes (map sshape ss ++ opt_shape w) = Ok sh ->
  NoDup (hist_axes sh axis) -> incl (hist_axes sh axis) (dkeys sh) -> total_size sh (hist_axes sh axis) <> 0 ->
  NoDup (dkeys d) -> length d = length ss -> (forall ax, In ax (dkeys d) -> ~ In ax (dkeys (apart sh (hist_axes sh axis)))) ->
  (forall n, In n (dvals d) -> n <> 0) ->
  exists h ds, na_histogramdd junk ss (BinsDict (z_dict d)) axis LimNone LimNone w = Ok (h, map d_edges ds) /\
    counted (fun n => n) ss d sh (hist_axes sh axis) w h ds.
Proof. exact histogramdd_none. Qed.
Print Assumptions C37_histogramdd_partial.

(** [histogram] likewise. *)
Theorem C37_histogram_partial :
  forall (junk : Qc) (a : sarr Qc) (ax : string) (n : nat) (axis : option (list string)) (w : option (sarr Qc)) (sh : shape),
  wf a -> opt_wf w -> broadcast_shapes (sshape a :: opt_shape w) = Ok sh -> NoDup (hist_axes sh axis) ->
  incl (hist_axes sh axis) (dkeys sh) -> total_size sh (hist_axes sh axis) <> 0 -> n <> 0 ->
  ~ In ax (dkeys (apart sh (hist_axes sh axis))) ->
  exists edges h, na_histogram junk a (BinsDict [(ax, Z.of_nat n)]) axis LimNone LimNone w = Ok (edges, h) /\
    counted (fun n => n) [a] [(ax, n)] sh (hist_axes sh axis) w h [mkDim a edges ax].
Proof. exact histogram_none. Qed.
Print Assumptions C37_histogram_partial.

(** [histogram2d] makes one edge more than bins were requested: it has the
    requested number of cells, and no sample is lost. *)
Theorem C37_histogram2d :
  forall (junk : Qc) (ss : list (sarr Qc)) (d : dict nat) (axis : option (list string)) (w : option (sarr Qc)) (sh : shape),
  ss <> [] -> Forall wf ss -> opt_wf w -> broadcast_shapes (map sshape ss ++ opt_shape w) = Ok sh ->
  NoDup (hist_axes sh axis) -> incl (hist_axes sh axis) (dkeys sh) -> total_size sh (hist_axes sh axis) <> 0 ->
  NoDup (dkeys d) -> length d = length ss -> (forall ax, In ax (dkeys d) -> ~ In ax (dkeys (apart sh (hist_axes sh axis)))) ->
  forall x y, ss = [x; y] ->
  exists h ds, na_histogram2d junk x y (BinsDict (z_dict d)) axis LimNone LimNone w = Ok (map d_edges ds, h) /\
    counted S ss d sh (hist_axes sh axis) w h ds.
Proof. exact histogram2d_none. Qed.
Print Assumptions C37_histogram2d.

(** Without weights the sum of all counts, at every position along the other axes,
    is thus the number of samples. *)
Theorem C37_number_of_samples :
  forall (sh : shape) (axis : list string) (e : env), incl axis (dkeys sh) ->
  qsum (map (weight_at None) (fibre sh axis e)) = qnat (total_size sh axis).
Proof. exact number_of_samples. Qed.
Print Assumptions C37_number_of_samples.

(** With limits the samples outside of them are not counted. *)
Theorem C37_histogramdd_limits :
  forall (junk : Qc) (bs : list bounded) (axis : option (list string)) (w : option (sarr Qc)) (sh : shape),
  Forall wf (map b_sample bs) -> opt_wf w -> bs <> [] ->
  broadcast_shapes (map sshape (map b_sample bs) ++ opt_shape w) = Ok sh ->
  NoDup (hist_axes sh axis) -> NoDup (map b_axis bs) ->
  (forall b, In b bs -> bounded_ok (apart sh (hist_axes sh axis)) b /\ b_num b <> 0) ->
  exists h ds, na_histogramdd junk (map b_sample bs) (BinsDict (z_dict (b_dict bs))) axis
                 (LimSeq (map b_lo bs)) (LimSeq (map b_hi bs)) w = Ok (h, map d_edges ds) /\
    Forall2 (made_of (apart sh (hist_axes sh axis)) (fun n => n)) bs ds /\ is_histogram h sh (hist_axes sh axis) ds w.
Proof. exact histogramdd_limits. Qed.
Print Assumptions C37_histogramdd_limits.

Theorem C37_histogram2d_limits :
  forall (junk : Qc) (bs : list bounded) (x y : sarr Qc) (axis : option (list string)) (w : option (sarr Qc)) (sh : shape),
  map b_sample bs = [x; y] -> Forall wf (map b_sample bs) -> opt_wf w ->
  broadcast_shapes (map sshape (map b_sample bs) ++ opt_shape w) = Ok sh ->
  NoDup (hist_axes sh axis) -> NoDup (map b_axis bs) ->
  (forall b, In b bs -> bounded_ok (apart sh (hist_axes sh axis)) b) ->
  exists h ds, na_histogram2d junk x y (BinsDict (z_dict (b_dict bs))) axis
                 (LimSeq (map b_lo bs)) (LimSeq (map b_hi bs)) w = Ok (map d_edges ds, h) /\
    Forall2 (made_of (apart sh (hist_axes sh axis)) S) bs ds /\ is_histogram h sh (hist_axes sh axis) ds w.
Proof. exact histogram2d_limits. Qed.
Print Assumptions C37_histogram2d_limits.

(** Edges given as arrays, which may differ along the other axes. *)
Theorem C37_edges :
  forall (junk : Qc) (ds : list dimension) (axis : option (list string)) (mn mx : limit) (w : option (sarr Qc)) (sh : shape),
  ds <> [] -> Forall wf (map d_sample ds) -> opt_wf w ->
  broadcast_shapes (map (fun d => sshape (d_sample d)) ds ++ opt_shape w) = Ok sh ->
  NoDup (hist_axes sh axis) -> NoDup (map d_axis ds) ->
  (forall d, In d ds -> edges_ok (apart sh (hist_axes sh axis)) d) ->
  exists h, na_histogramdd junk (map d_sample ds) (BinsArr (map d_edges ds)) axis mn mx w = Ok (h, map d_edges ds) /\
    is_histogram h sh (hist_axes sh axis) ds w.
Proof. exact histogramdd_arrays. Qed.
Print Assumptions C37_edges.

Open Scope string_scope.

Definition qs (l : list Q) : list Qc := map Q2Qc l.
Definition show (a : sarr Qc) : shape * list Q := (sshape a, map this (ravel (s_nd a))).

Definition ex_a : sarr Qc := mkS (of_list (qint 0) [4] (qs [0; 1; 3; 4]%Q)) ["t"].
Definition ex_b : sarr Qc := mkS (of_list (qint 0) [2; 4] (qs [5; 5; 1; 2;  0; 2; 2; 8]%Q)) ["r"; "t"].
Definition ex_w : sarr Qc := mkS (of_list (qint 0) [2] (qs [1; 3]%Q)) ["r"].

Definition show1 (r : res (sarr Qc * sarr Qc)) := match r with Ok (e, h) => Some (show e, show h) | Err _ => None end.

(** With [bins=dict(x=3)] there are two cells instead of three. *)
Theorem C37_bins_refuted :
  show1 (na_histogram (qint 0) ex_a (BinsDict [("x", 3%Z)]) None LimNone LimNone None)
  = Some (([("x", 3)], [0; 2; 4]%Q), ([("x", 2)], [2; 2]%Q)).
Proof. vm_compute. reflexivity. Qed.
Print Assumptions C37_bins_refuted.

(** With [bins=dict(x=1)] there are no cells and all samples are lost; with
    [bins=dict(x=0)] there is an exception. *)
Theorem C37_count_refuted :
  show1 (na_histogram (qint 0) ex_a (BinsDict [("x", 1%Z)]) None LimNone LimNone None)
  = Some (([("x", 1)], [0]%Q), ([("x", 0)], [])) /\ total_size (sshape ex_a) (s_axes ex_a) = 4 /\ na_histogram (qint 0) ex_a (BinsDict [("x", 0%Z)]) None LimNone LimNone None = Err ValueError.
Proof. split; [|split]; vm_compute; reflexivity. Qed.
Print Assumptions C37_count_refuted.

(** The hypotheses hold of these samples, with an axis [r] that is kept. *)
Example C37_example_hypotheses :
  Forall wf [ex_a; ex_b] /\ opt_wf (Some ex_w) /\
  broadcast_shapes (map sshape [ex_a; ex_b] ++ opt_shape (Some ex_w)) = Ok [("t", 4); ("r", 2)] /\
  total_size [("t", 4); ("r", 2)] ["t"] = 4 /\ apart [("t", 4); ("r", 2)] ["t"] = [("r", 2)].
Proof. repeat split; repeat constructor; simpl; intuition discriminate. Qed.

Definition shows (r : res (list (sarr Qc) * sarr Qc)) := match r with Ok (es, h) => Some (map show es, show h) | Err _ => None end.
Definition swap (r : res (sarr Qc * list (sarr Qc))) := match r with Ok (h, es) => Ok (es, h) | Err x => Err x end.

Example C37_example_2d :
  shows (na_histogram2d (qint 0) ex_a ex_b (BinsDict [("x", 2%Z); ("y", 1%Z)]) (Some ["t"]) LimNone LimNone (Some ex_w))
  = Some ([([("r", 2); ("x", 3)], [0; 2; 4; 0; 2; 4]%Q); ([("r", 2); ("y", 2)], [1; 5; 0; 8]%Q)],
          ([("r", 2); ("x", 2); ("y", 1)], [2; 2; 6; 6]%Q)).
Proof. vm_compute. reflexivity. Qed.

Example C37_example_dd :
  shows (swap (na_histogramdd (qint 0) [ex_a; ex_b] (BinsDict [("x", 3%Z); ("y", 3%Z)]) (Some ["t"]) LimNone LimNone None))
  = Some ([([("r", 2); ("x", 3)], [0; 2; 4; 0; 2; 4]%Q); ([("r", 2); ("y", 3)], [1; 3; 5; 0; 4; 8]%Q)],
          ([("r", 2); ("x", 2); ("y", 2)], [0; 2; 2; 0; 2; 0; 1; 1]%Q)) /\
  na_histogramdd (qint 0) [ex_a; ex_b] (BinsDict [("x", 3%Z)]) (Some ["t"]) LimNone LimNone None = Err ValueError.
Proof. split; vm_compute; reflexivity. Qed.

(** limits that depend on the position along [r] *)
Example C37_example_limits :
  let lo := OpNum (qint 0) in
  let hi := OpArr ex_w in
  bounded_ok [("r", 2)] (mkB ex_b lo hi "y" 2) /\
  shows (swap (na_histogramdd (qint 0) [ex_b] (BinsDict [("y", 2%Z)]) (Some ["t"]) (LimSeq [lo]) (LimOne hi) None))
  = Some ([([("r", 2); ("y", 2)], [0; 1; 0; 3]%Q)], ([("r", 2); ("y", 1)], [1; 3]%Q)).
Proof.
  split; [|vm_compute; reflexivity]. split; [split; [exact I|intros ? ? []]|]. split.
  { split; [repeat constructor; simpl; intuition discriminate|]. intros ax n [H|[]]. injection H as <- <-. exists 2. simpl. auto. }
  split; [|simpl; intuition discriminate]. intros e He. assert (Hr : e "r" < 2) by (apply He; simpl; auto).
  unfold op_at, bat, at_, bclamp. simpl. destruct (e "r") as [|[|k]]; [discriminate|discriminate|lia].
Qed.
