(** C71, C72: pose estimation error and matching of people. *)
From Coq Require Import Reals Lra List Arith Lia Permutation.
From Verif Require Import Base PoseModel PoseSpec PoseReorder PoseBox PoseMatch PoseStages PosePem PoseWitness.
Import ListNotations.
Open Scope R_scope.

(** ** C71: the pose estimation error *)
(** The error is the sum of the errors of the frames over the number of keypoints that count. *)
Theorem C71_value : forall assign n d penalty frames, solves assign -> 0 < d -> d <= 10000000000 -> (0 < n)%nat -> 0 <= penalty ->
  Forall (sane_frame n) frames ->
  pem assign n d penalty frames =
  Ok (mean_of (sum_of (fun f => frame_error penalty (f_gt f) (f_pr f) (matching_ids assign d (f_boxes f) (f_gt f) (f_pr f) n)) frames)
              (sum_of (fun f => frame_points (f_gt f) (f_pr f) (matching_ids assign d (f_boxes f) (f_gt f) (f_pr f) n)) frames)).
Proof. intros assign n d penalty frames HS D0 D1 HN HP F. exact (pem_value_sum assign n d penalty HS D0 D1 HN HP frames F). Qed.
Print Assumptions C71_value.
(** It lies between zero and the penalty. *)
Theorem C71_bounds : forall assign n d penalty frames v, solves assign -> 0 < d -> d <= 10000000000 -> (0 < n)%nat -> 0 <= penalty ->
  Forall (sane_frame n) frames -> pem assign n d penalty frames = Ok v -> 0 <= v <= penalty.
Proof. intros assign n d penalty frames v HS D0 D1 HN HP. exact (pem_bounds assign n d penalty HS D0 D1 HN HP frames v). Qed.
Print Assumptions C71_bounds.
(** The order of the frames does not matter. *)
Theorem C71_order : forall assign n d penalty frames frames', solves assign -> 0 < d -> d <= 10000000000 -> (0 < n)%nat -> 0 <= penalty ->
  Forall (sane_frame n) frames -> Permutation frames frames' ->
  pem assign n d penalty frames = pem assign n d penalty frames'.
Proof. intros assign n d penalty frames frames' HS D0 D1 HN HP. exact (pem_permutation assign n d penalty HS D0 D1 HN HP frames frames'). Qed.
Print Assumptions C71_order.
(** It is zero exactly when everyone who shows is matched, each to the same pose. *)
Theorem C71_zero : forall assign n d penalty frames, solves assign -> 0 < d -> d <= 10000000000 -> (0 < n)%nat -> 0 < penalty ->
  Forall (sane_frame n) frames ->
  pem assign n d penalty frames = Ok 0 <->
  forall f, In f frames -> matched_to (matching_ids assign d (f_boxes f) (f_gt f) (f_pr f) n) (f_gt f) (f_pr f).
Proof. exact pem_zero. Qed.
Print Assumptions C71_zero.
(** Predictions that are right under some assignment and near the boxes have no error. *)
Theorem C71_perfect : forall assign n d penalty frames, solves assign -> 0 < d -> d <= 10000000000 -> (0 < n)%nat -> 0 < penalty ->
  Forall (sane_frame n) frames ->
  (forall f, In f frames -> exists M, perfect d (f_boxes f) (f_gt f) (f_pr f) M) ->
  pem assign n d penalty frames = Ok 0.
Proof. exact pem_perfect. Qed.
Print Assumptions C71_perfect.
(** The rows of the reordered frame: matched pairs with a label that shows, labels left over, predictions left over. *)
Theorem C71_rows : forall n gt pr M, matching M (length gt) (length pr) ->
  exists g p, reorder n gt pr M = Ok (g, p) /\ length g = length p /\
    combine g p =
      map (fun m => (person_at gt (fst m), person_at pr (snd m))) (filter (fun m => shows (person_at gt (fst m))) M) ++
      map (fun i => (person_at gt i, repeat no_keypoint n)) (filter (fun i => shows (person_at gt i)) (unmatched (map fst M) (length gt))) ++
      map (fun j => (repeat no_keypoint n, person_at pr j)) (filter (fun j => shows (person_at pr j)) (unmatched (map snd M) (length pr))).
Proof. exact reorder_rows. Qed.
Print Assumptions C71_rows.
(** Ids out of range are refused. *)
Theorem C71_out_of_range : forall n gt pr ids,
  (exists m, In m ids /\ ((length gt <= fst m)%nat \/ (length pr <= snd m)%nat)) -> reorder n gt pr ids = Err IndexError.
Proof. exact reorder_out_of_range. Qed.
Print Assumptions C71_out_of_range.
(** Boxes are read with their heading counted clockwise, the labels count it counter-clockwise: predictions equal to
    the labels, inside the boxes of the labels, can have the greatest error. *)
Theorem C71_heading_refuted : exists f n d, sane_frame n f /\ 0 < d /\ (0 < n)%nat /\ f_pr f = f_gt f /\
  (exists g, In g (f_gt f) /\ shows g = true) /\
  (forall i k, (i < length (f_gt f))%nat -> In k (person_at (f_gt f) i) -> in_box (box_at (f_boxes f) i) (place k)) /\
  forall assign, solves assign -> pem assign n d d [f] = Ok d.
Proof. exact heading_refuted. Qed.
Print Assumptions C71_heading_refuted.
Example C71_case : exists assign, solves assign /\ sane_frame 2 frameP /\ perfect (1/4) (f_boxes frameP) (f_gt frameP) (f_pr frameP) [(0, 0)]%nat /\
  pem assign 2 (1/4) (1/4) [frameP] = Ok 0.
Proof.
  exists brute_force. split; [exact brute_force_solves|]. split; [exact frameP_sane|]. split; [exact frameP_perfect|].
  apply C71_perfect; try lra; try lia; [exact brute_force_solves | apply Forall_cons; [exact frameP_sane | apply Forall_nil]|].
  intros f [<-|[]]. eexists. exact frameP_perfect.
Qed.
Print Assumptions C71_case.

(** ** C72: the matcher *)
(** No label and no prediction is matched twice. *)
Theorem C72_one_to_one : forall assign d boxes gt pr n, solves assign -> 0 < d -> d <= 10000000000 -> (0 < n)%nat -> Forall sane_box boxes ->
  rectangular n gt -> rectangular n pr -> matching (matching_ids assign d boxes gt pr n) (length gt) (length pr).
Proof. exact match_one_to_one. Qed.
Print Assumptions C72_one_to_one.
(** A first pass matches labels that show nothing with predictions inside their boxes and not close to a label, as many
    keypoints as possible.  A second pass matches others near a box, saving as much error as possible. *)
Theorem C72_passes : forall assign d boxes gt pr n, solves assign -> 0 < d -> d <= 10000000000 -> (0 < n)%nat -> Forall sane_box boxes ->
  rectangular n gt -> rectangular n pr ->
  exists first second,
    matching_ids assign d boxes gt pr n = second ++ first /\
    (forall m, In m first -> first_allowed d gt pr m /\ 0 < inside_count (box_at boxes (fst m)) (person_at pr (snd m))) /\
    (forall M, matching M (length gt) (length pr) -> (forall m, In m M -> first_allowed d gt pr m) ->
       sum_of (fun m => inside_count (box_at boxes (fst m)) (person_at pr (snd m))) M <=
       sum_of (fun m => inside_count (box_at boxes (fst m)) (person_at pr (snd m))) first) /\
    avoids second first /\
    (forall m, In m second -> near_box d (box_at boxes (fst m)) (person_at pr (snd m)) /\
       pair_error d (person_at gt (fst m)) (person_at pr (snd m)) < d * INR n) /\
    (forall M, matching M (length gt) (length pr) -> avoids M first ->
       (forall m, In m M -> near_box d (box_at boxes (fst m)) (person_at pr (snd m))) ->
       sum_of (fun m => d * INR n - pair_error d (person_at gt (fst m)) (person_at pr (snd m))) M <=
       sum_of (fun m => d * INR n - pair_error d (person_at gt (fst m)) (person_at pr (snd m))) second).
Proof. exact match_stages. Qed.
Print Assumptions C72_passes.
(** A prediction without visible keypoints is never matched. *)
Theorem C72_shows : forall assign d boxes gt pr n m, solves assign -> 0 < d -> d <= 10000000000 -> (0 < n)%nat -> Forall sane_box boxes ->
  rectangular n gt -> rectangular n pr -> In m (matching_ids assign d boxes gt pr n) -> shows (person_at pr (snd m)) = true.
Proof. exact match_shows. Qed.
Print Assumptions C72_shows.
(** The displacement goes to the nearest point of the box, and its length is the distance. *)
Theorem C72_displacement : forall p b, sane_box b ->
  let y := (vx p + vx (box_displacement p b), vy p + vy (box_displacement p b), vz p + vz (box_displacement p b)) in
  in_box_clockwise b y /\ dist3 p y = box_distance b p /\ (forall z, in_box_clockwise b z -> dist3 p y <= dist3 p z) /\
  vnorm (box_displacement p b) = box_distance b p.
Proof.
  intros p b H y. pose proof H as (HX & HY & HZ). destruct (displacement_nearest p b HX HY HZ) as (A & B & C).
  exact (conj A (conj (eq_trans (eq_sym B) (displacement_distance p b H)) (conj C (displacement_distance p b H)))).
Qed.
Print Assumptions C72_displacement.
(** The assignment does not minimise the error, as it says: it averages over hidden keypoints too. *)
Theorem C72_minimal_refuted : exists f M n d, sane_frame n f /\ 0 < d /\ (0 < n)%nat /\ matching M (length (f_gt f)) (length (f_pr f)) /\
  (forall m, In m M -> near_box d (box_at (f_boxes f) (fst m)) (person_at (f_pr f) (snd m))) /\
  (forall g, In g (f_gt f) -> shows g = true) /\
  forall assign, solves assign -> exists v, pem assign n d d [f] = Ok v /\
    mean_of (frame_error d (f_gt f) (f_pr f) M) (frame_points (f_gt f) (f_pr f) M) < v.
Proof. exact not_minimal. Qed.
Print Assumptions C72_minimal_refuted.
(** A label that shows nothing can take, in the second pass, a prediction close to a label that does show. *)
Theorem C72_hidden_refuted : exists f n d, sane_frame n f /\ 0 < d /\ (0 < n)%nat /\
  forall assign, solves assign -> exists i i' j,
    In (i, j) (matching_ids assign d (f_boxes f) (f_gt f) (f_pr f) n) /\ shows (person_at (f_gt f) i) = false /\
    (i' < length (f_gt f))%nat /\ shows (person_at (f_gt f) i') = true /\ close_people d (person_at (f_gt f) i') (person_at (f_pr f) j) /\
    near_box d (box_at (f_boxes f) i') (person_at (f_pr f) j) /\
    ~ In i' (map fst (matching_ids assign d (f_boxes f) (f_gt f) (f_pr f) n)) /\ pem assign n d d [f] = Ok d.
Proof. exact hidden_takes. Qed.
Print Assumptions C72_hidden_refuted.
Example C72_case : exists assign, solves assign /\ sane_frame 2 frameA /\
  matching_ids assign (1/4) (f_boxes frameA) (f_gt frameA) (f_pr frameA) 2 = [(1, 0)]%nat.
Proof. exists brute_force. split; [exact brute_force_solves|]. split; [exact frameA_sane|]. apply matchA, brute_force_solves. Qed.
Print Assumptions C72_case.
