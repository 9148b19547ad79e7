(** C122: the speeds predictions are measured with. *)
From Verif Require Import Base BreakdownModel SpeedModel SpeedSpec SpeedProofs.
Open Scope list_scope.
Open Scope Z_scope.
(** Every prediction takes the speed of the nearest ground truth of its frame, and nothing else of it changes. *)
Theorem C122_estimate root pds gts : exists qs, estimate root pds gts = Ok qs /\ Forall2 (estimated root gts) pds qs.
Proof. exact (estimate_spec root pds gts). Qed.
Print Assumptions C122_estimate.
(** Which ground truth that is does not depend on anything else. *)
Theorem C122_nearest root p gts g h : nearest root p gts g -> nearest root p gts h -> g = h.
Proof. exact (nearest_unique root p gts g h). Qed.
Print Assumptions C122_nearest.
(** Frame by frame, if the numbers of frames agree. *)
Theorem C122_frames root pds gts : (length pds <> length gts -> estimate_frames root pds gts = Err CheckFailed)
  /\ (length pds = length gts -> exists qss, estimate_frames root pds gts = Ok qss
      /\ length qss = length pds /\ forall i ps gs, nth_error pds i = Some ps -> nth_error gts i = Some gs ->
           exists qs, nth_error qss i = Some qs /\ Forall2 (estimated root gs) ps qs).
Proof. exact (frames_spec root pds gts). Qed.
Print Assumptions C122_frames.
(** Detection: when the speeds are estimated. *)
Theorem C122_detection root c pds gts : let estimating := by_velocity c /\ exists first rest, pds = first :: rest /\ accel_x first = None in
  (estimating -> exists qs, detection_predictions root c pds gts = Ok qs /\ Forall2 (estimated root gts) pds qs)
  /\ (~ estimating -> detection_predictions root c pds gts = Ok pds).
Proof. exact (detection_decided root c pds gts). Qed.
Print Assumptions C122_detection.
(** Tracking: when the speeds are estimated. *)
Theorem C122_tracking root c pds gts : let estimating := by_velocity c /\ exists first rest frames, pds = (first :: rest) :: frames /\ speed_x first = None in
  (length pds <> length gts -> tracking_predictions root c pds gts = Err CheckFailed)
  /\ (length pds = length gts -> estimating -> exists qss, tracking_predictions root c pds gts = Ok qss
      /\ length qss = length pds /\ forall i ps gs, nth_error pds i = Some ps -> nth_error gts i = Some gs ->
           exists qs, nth_error qss i = Some qs /\ Forall2 (estimated root gs) ps qs)
  /\ (length pds = length gts -> ~ estimating -> tracking_predictions root c pds gts = Ok pds).
Proof. exact (tracking_decided root c pds gts). Qed.
Print Assumptions C122_tracking.
(** The breakdowns see the speed exactly when both components are declared, and the rest as it is. *)
Theorem C122_seen e : sees e (seen e).
Proof. exact (seen_object e). Qed.
Print Assumptions C122_seen.
(** The prediction is put in the velocity class of the ground truth. *)
Theorem C122_class root gts p q g : estimated root gts p q -> nearest root p gts g -> typ (body p) = typ (body g) -> has_speed g ->
  shard VELOCITY (seen q) = shard VELOCITY (seen g).
Proof. exact (same_class root gts p q g). Qed.
Print Assumptions C122_class.
(** Tracking: if the first frame has no predictions, nothing is estimated and every prediction without speed counts as stationary. *)
Theorem C122_empty_first_frame root c pds gts : length pds = length gts -> pds <> [] ->
  (forall p ps, In ps pds -> In p ps -> speed_x p = None) ->
  tracking_predictions root c ([] :: pds) ([] :: gts) = Ok ([] :: pds)
  /\ forall p ps t, In ps pds -> In p ps -> typ (body p) = t -> t <> TYPE_UNKNOWN -> shard VELOCITY (seen p) = Ok (5 * (type_num t - 1)).
Proof. exact (empty_frame root c pds gts). Qed.
Print Assumptions C122_empty_first_frame.
(** Detection: declared speeds are not respected. *)
Theorem C122_overwritten_refuted : exists root c pds gts qs p q, by_velocity c /\ (forall e, In e pds -> has_speed e) /\ detection_predictions root c pds gts = Ok qs
  /\ nth_error pds 0 = Some p /\ nth_error qs 0 = Some q /\ shard VELOCITY (seen p) = Ok 4 /\ shard VELOCITY (seen q) = Ok 0.
Proof. exact (overwritten_refuted ). Qed.
Print Assumptions C122_overwritten_refuted.
(** Detection: missing speeds are not always estimated. *)
Theorem C122_unestimated_refuted : exists root c pds gts p g, by_velocity c /\ detection_predictions root c pds gts = Ok pds
  /\ In p pds /\ ~ has_speed p /\ nearest root p gts g /\ shard VELOCITY (seen p) = Ok 0 /\ shard VELOCITY (seen g) = Ok 4.
Proof. exact (unestimated_refuted ). Qed.
Print Assumptions C122_unestimated_refuted.
(** Tracking: only the first prediction is looked at. *)
Theorem C122_first_only_refuted : exists root c ps gs qs p q, by_velocity c /\ tracking_predictions root c [ps] [gs] = Ok [qs]
  /\ nth_error ps 1 = Some p /\ nth_error qs 1 = Some q /\ has_speed p /\ shard VELOCITY (seen p) = Ok 4 /\ shard VELOCITY (seen q) = Ok 0.
Proof. exact (first_only_refuted ). Qed.
Print Assumptions C122_first_only_refuted.

(** Two ground truths at the same distance: the first gives the speed. *)
Example C122_nonvacuous : exists q, estimate (fun x => x) [thing 0 None None None] [thing 9 None None None; thing 1 (Some 3%Q) (Some 4%Q) None; thing (-1) None (Some 7%Q) None] = Ok [q]
  /\ speed_x q = Some 3%Q /\ speed_y q = Some 4%Q.
Proof. eexists. repeat split; vm_compute; reflexivity. Qed.
Example C122_empty_nonvacuous : tracking_predictions (fun x => x) velocity_config [[]; [thing 0 None None None]] [[]; [thing 0 (Some 20%Q) (Some 0%Q) None]]
  = Ok [[]; [thing 0 None None None]].
Proof. reflexivity. Qed.
