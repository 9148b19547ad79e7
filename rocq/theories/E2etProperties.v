(** C144: the tutorial of the end-to-end driving challenge. *)
From Coq Require Import Reals Lra.
From Verif Require Import Base ResultLib E2etModel E2etSpec E2etProofs.
Open Scope list_scope.

(** The images of the front cameras, and the calibrations at their places. *)
Theorem C144_cameras (I C : Type) (images : list (Z * I)) (calibrations : list (Z * C)) is cs :
  return_front3_cameras images calibrations = Ok (is, cs) <-> picked images calibrations front_cameras is cs.
Proof. exact (front_exact images calibrations is cs). Qed.
Print Assumptions C144_cameras.
(** The only error: an image without a calibration at its place. *)
Theorem C144_cameras_error (I C : Type) (images : list (Z * I)) (calibrations : list (Z * C)) :
  (forall e, return_front3_cameras images calibrations = Err e -> e = IndexError) /\
  (return_front3_cameras images calibrations = Err IndexError <->
   exists c i a, In c front_cameras /\ first_image images c i a /\ nth_error calibrations i = None).
Proof. exact (front_error images calibrations). Qed.
Print Assumptions C144_cameras_error.
(** If both lists have the cameras in the same order, every image comes with the calibration of its camera. *)
Theorem C144_paired (I C : Type) (images : list (Z * I)) (calibrations : list (Z * C)) : same_order images calibrations ->
  exists is cs, return_front3_cameras images calibrations = Ok (is, cs) /\ length is = length cs /\
    map fst cs = filter (fun c => existsb (fun p => (fst p =? c)%Z) images) front_cameras.
Proof. exact (front_paired images calibrations). Qed.
Print Assumptions C144_paired.
(** The files: together they hold all predictions in order, each but the last ones the same number, the smallest possible. *)
Theorem C144_files (A : Type) (predictions : list A) n : (0 < n)%nat -> exists per ss, shards predictions n = Ok ss /\ length ss = n /\ concat ss = predictions /\
  (length predictions <= per * n)%nat /\ (forall d, (length predictions <= d * n)%nat -> (per <= d)%nat) /\
  forall i s, nth_error ss i = Some s -> length s = Nat.min per (length predictions - i * per).
Proof. exact (shards_exact predictions n). Qed.
Print Assumptions C144_files.
(** Otherwise not, even if every camera has an image and a calibration. *)
Theorem C144_paired_refuted : exists (images calibrations : list (Z * Z)) is cs,
  (forall c, In c (map fst images) <-> In c (map fst calibrations)) /\ NoDup (map fst images) /\ NoDup (map fst calibrations) /\
  return_front3_cameras images calibrations = Ok (is, cs) /\ is = [20; 10; 30]%Z /\ images = [(1, 10); (2, 20); (3, 30)]%Z /\ map fst cs = [1; 2; 3]%Z.
Proof. exact (front_paired_refuted ). Qed.
Print Assumptions C144_paired_refuted.
(** A file may be empty although there are more predictions than files. *)
Theorem C144_files_refuted : exists (predictions : list nat) n ss, (n < length predictions)%nat /\ shards predictions n = Ok ss /\ In [] ss.
Proof. exact (shards_empty_refuted ). Qed.
Print Assumptions C144_files_refuted.
(** The distance of a prediction is the mean over the steps of the mask, zero if there are none. *)
Theorem C144_distance prediction observed mask : length prediction = length observed -> length observed = length mask ->
  exists ds x, distances prediction observed mask ds /\ average_distance prediction observed mask = Ok x /\ mean_of ds x.
Proof. exact (average_exact prediction observed mask). Qed.
Print Assumptions C144_distance.
(** Predictions of another length are refused, unless one of the two has a single step. *)
Theorem C144_lengths prediction observed : average_distance prediction observed (repeat true (length observed)) = Err ValueError <->
  length prediction <> length observed /\ length prediction <> 1%nat /\ length observed <> 1%nat.
Proof. exact (lengths_exact prediction observed). Qed.
Print Assumptions C144_lengths.
(** A prediction of one waypoint is scored like one that stays there. *)
Theorem C144_single p observed : observed <> [] ->
  average_distance [p] observed (repeat true (length observed)) = average_distance (repeat p (length observed)) observed (repeat true (length observed)).
Proof. exact (single_waypoint p observed). Qed.
Print Assumptions C144_single.
(** And for an observation of one step the result is a sum, not a mean. *)
Theorem C144_single_refuted : exists prediction observed, average_distance prediction observed (repeat true (length observed)) = Ok 2 /\
  forall p, In p prediction -> distance p (0, 0) = 1 /\ observed = [(0, 0)].
Proof. exact (single_observed_refuted ). Qed.
Print Assumptions C144_single_refuted.
(** The ADEs: one for each frame of the ground truth, of the last prediction for it. *)
Theorem C144_ade gt submissions l : ade_list gt submissions = Ok l <->
  Forall2 (fun g x => exists p, last_for (fst g) (concat submissions) p /\ average_distance p (snd g) (repeat true (length (snd g))) = Ok x) gt l.
Proof. exact (ade_exact gt submissions l). Qed.
Print Assumptions C144_ade.
(** They do not depend on how the predictions are divided into files. *)
Theorem C144_ade_files gt predictions n ss : shards predictions n = Ok ss -> ade_list gt ss = ade_list gt [predictions].
Proof. exact (ade_shards gt predictions n ss). Qed.
Print Assumptions C144_ade_files.
(** The number printed is their mean. *)
Theorem C144_mean l : (mean_ade l = None <-> l = []) /\ forall x, mean_ade l = Some x -> mean_of l x.
Proof. exact (mean_ade_value l). Qed.
Print Assumptions C144_mean.
(** The frame for the rater feedback is the first one with ratings, and it is the frame read last. *)
Theorem C144_label frames : forall data f d, find_label data frames = (d, Some f) <->
  d = f /\ exists i, nth_error frames i = Some f /\ has_ratings f /\ forall j g, (j < i)%nat -> nth_error frames j = Some g -> ~ has_ratings g.
Proof. exact (label_exact frames). Qed.
Print Assumptions C144_label.
(** None if there is no such frame. *)
Theorem C144_no_label frames : forall data d, find_label data frames = (d, None) -> forall g, In g frames -> ~ has_ratings g.
Proof. exact (label_none frames). Qed.
Print Assumptions C144_no_label.
(** The initial speed is then that of this frame. *)
Theorem C144_speed data frames d f v : find_label data frames = (d, Some f) -> speed f v -> initial_speeds d [f] = Ok [v].
Proof. exact (label_speed data frames d f v). Qed.
Print Assumptions C144_speed.
(** For a list of several frames, all speeds are those of the frame read last. *)
Theorem C144_speed_refuted : exists data a b va vb, a <> b /\ has_ratings a /\ has_ratings b /\ speed a va /\ speed b vb /\ va <> vb /\
  In data [a; b] /\ exists l, initial_speeds data [a; b] = Ok l /\ l <> [va; vb].
Proof. exact (speed_refuted ). Qed.
Print Assumptions C144_speed_refuted.

Example C144_nonvacuous_order : same_order [(1, true); (2, false)]%Z [(1, true); (2, true)]%Z.
Proof. intros [|[|[|i]]] n a H; cbn in H; try discriminate; injection H as <- <-; now exists true. Qed.
Example C144_nonvacuous_label : has_ratings (Frame [1] [(2, 0)])%R /\ speed (Frame [1] [(2, 0)])%R 2%R.
Proof. split; [exists 1%R, []; split; [reflexivity|lra]|]. exists [], (2, 0)%R. cbn. repeat split; lra. Qed.
