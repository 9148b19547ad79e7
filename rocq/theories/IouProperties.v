(** Intersection over union (C38) and longitudinal error tolerance (C61). *)
From Coq Require Import QArith Qabs List.
From Verif Require Import Base BoxModel BoxSpec IouModel IouSpec IouProofs LetProofs.
Import ListNotations.
Local Open Scope Q_scope.

(** Axis aligned: common area over the area of the union, 0 for boxes of unusable size. *)
Theorem C38_axis_aligned_value poly a b :
  (usable a -> usable b -> exists v, compute_iou poly a b TYPE_AA_2D = Ok v /\ v == over_union (rect_common a b) (area a) (area b)) /\
  (~ usable a \/ ~ usable b -> compute_iou poly a b TYPE_AA_2D = Ok 0).
Proof. exact (aa_value poly a b). Qed.
Print Assumptions C38_axis_aligned_value.

(** It never fails, is symmetric and between 0 and 1; 0 exactly when the interiors are disjoint (or a
    size is unusable), 1 exactly for the same rectangle. *)
Theorem C38_axis_aligned_laws poly a b :
  exists v w, compute_iou poly a b TYPE_AA_2D = Ok v /\ compute_iou poly b a TYPE_AA_2D = Ok w /\
  v == w /\ 0 <= v /\ v <= 1 /\
  (v == 0 <-> ~ usable a \/ ~ usable b \/ ~ exists x y, in_open_rect a x y /\ in_open_rect b x y) /\
  (v == 1 <-> usable a /\ usable b /\ forall x y, in_rect a x y <-> in_rect b x y).
Proof. exact (aa_laws poly a b). Qed.
Print Assumptions C38_axis_aligned_laws.

(** Rotated boxes, for any polygon intersection area meeting its contract. *)
Theorem C38_rotated_2d poly a b : area_contract poly ->
  exists v w, compute_iou poly a b TYPE_2D = Ok v /\ compute_iou poly b a TYPE_2D = Ok w /\
  v == w /\ 0 <= v /\ v <= 1 /\
  (usable a -> usable b -> v == over_union (poly a b) (area a) (area b)) /\
  (v == 0 <-> ~ usable a \/ ~ usable b \/ poly a b == 0) /\
  (v == 1 <-> usable a /\ usable b /\ poly a b == area a /\ poly a b == area b).
Proof. exact (fun h => laws_2d poly h a b). Qed.
Print Assumptions C38_rotated_2d.
Theorem C38_rotated_3d poly a b : area_contract poly ->
  exists v w, compute_iou poly a b TYPE_3D = Ok v /\ compute_iou poly b a TYPE_3D = Ok w /\
  v == w /\ 0 <= v /\ v <= 1 /\
  (usable3 a -> usable3 b -> v == over_union (poly a b * z_common a b) (volume a) (volume b)) /\
  (v == 0 <-> ~ usable3 a \/ ~ usable3 b \/ poly a b * z_common a b == 0) /\
  (v == 1 <-> usable3 a /\ usable3 b /\ poly a b * z_common a b == volume a /\ poly a b * z_common a b == volume b).
Proof. exact (fun h => laws_3d poly h a b). Qed.
Print Assumptions C38_rotated_3d.

(** An unknown box type is fatal, unless a dimension is too large, which is looked at first. *)
Theorem C38_unknown_type poly a b :
  (compute_iou poly a b TYPE_UNKNOWN = Err CheckFailed <->
   forall c, c = a \/ c = b -> blength c < 1000000 /\ bwidth c < 1000000 /\ bheight c < 1000000) /\
  (compute_iou poly a b TYPE_UNKNOWN <> Err CheckFailed -> compute_iou poly a b TYPE_UNKNOWN = Ok 0).
Proof. exact (unknown_type_iff poly a b). Qed.
Print Assumptions C38_unknown_type.

(** A batch is the single computation on each box. *)
Theorem C38_batch poly b l t vs : batch_compute_iou poly b l t = Ok vs <->
  Forall2 (fun c v => compute_iou poly b c t = Ok v) l vs.
Proof. exact (batch_spec poly b l t vs). Qed.
Print Assumptions C38_batch.

(** The axis aligned area meets the contract, so the rotated theorems are not empty. *)
Example contract_met : area_contract rect_common.
Proof.
  intros a b Ua Ub. destruct (rect_common_bounds a b Ua Ub) as (A & B & C).
  exact (conj A (conj B (conj C (rect_common_sym a b)))).
Qed.
Example half_overlap : (exists v, compute_iou rect_common (bx 0 0 0) (bx 2 0 0) TYPE_AA_2D = Ok v /\ v == 1 # 3) /\ usable (bx 0 0 0).
Proof. split; [eexists; split; [vm_compute; reflexivity|reflexivity]|repeat split]. Qed.

(** ** Longitudinal affinity *)
Theorem C61_affinity prediction gt cfg gl pl :
  let r := at_least_micro gl in
  let tol := tolerance cfg r in
  let err := longitudinal_error (sensor cfg) (center prediction) (center gt) r in
  let v := longitudinal_affinity prediction gt cfg gl pl in
  0 <= v /\ v <= 1 /\
  (0 < tol ->
    (err <= tol -> v == 1 - err / tol) /\ (v == 0 <-> tol <= err) /\ (v == 1 <-> err == 0)).
Proof. exact (affinity_laws prediction gt cfg gl pl). Qed.
Print Assumptions C61_affinity.
Theorem C61_affinity_perfect gt prediction cfg gl pl :
  center prediction = center gt ->
  gl * gl == dot3 (minus3 (center gt) (sensor cfg)) (minus3 (center gt) (sensor cfg)) -> 1 # 1000000 <= gl ->
  0 < tolerance cfg gl -> longitudinal_affinity prediction gt cfg gl pl == 1.
Proof. exact (affinity_perfect gt prediction cfg gl pl). Qed.
Print Assumptions C61_affinity_perfect.
(** Moving a prediction across the line of sight to the ground truth changes nothing. *)
Theorem C61_affinity_lateral p1 p2 gt cfg gl pl1 pl2 :
  dot3 (minus3 (center p1) (center p2)) (minus3 (center gt) (sensor cfg)) == 0 ->
  longitudinal_affinity p1 gt cfg gl pl1 == longitudinal_affinity p2 gt cfg gl pl2.
Proof. exact (affinity_lateral p1 p2 gt cfg gl pl1 pl2). Qed.
Print Assumptions C61_affinity_lateral.
Theorem C61_affinity_monotone p1 p2 gt cfg gl pl1 pl2 :
  let r := at_least_micro gl in
  longitudinal_error (sensor cfg) (center p1) (center gt) r <= longitudinal_error (sensor cfg) (center p2) (center gt) r ->
  longitudinal_affinity p2 gt cfg gl pl2 <= longitudinal_affinity p1 gt cfg gl pl1.
Proof. exact (affinity_monotone p1 p2 gt cfg gl pl1 pl2). Qed.
Print Assumptions C61_affinity_monotone.
(** With zero tolerance even a perfect prediction has affinity 0. *)
Theorem C61_zero_tolerance_refuted : exists b cfg gl pl,
  gl * gl == dot3 (minus3 (center b) (sensor cfg)) (minus3 (center b) (sensor cfg)) /\ 1 # 1000000 <= gl /\
  longitudinal_affinity b b cfg gl pl == 0.
Proof. exact zero_tolerance_refuted. Qed.
Print Assumptions C61_zero_tolerance_refuted.

(** ** Alignment along the line of sight: prediction and ground truth in the sensor frame, the
    prediction at least one millimetre away from the sensor. *)
Theorem C61_range_aligned p g : 1 # 1000000 <= dot3 (center p) (center p) ->
  exists c, aligned_prediction_box p g RANGE_ALIGNED = Ok c /\ same_extent c p /\
  closest_on_line (center c) (center p) (center g).
Proof. exact (range_aligned p g). Qed.
Print Assumptions C61_range_aligned.
Theorem C61_range_aligned_near_refuted : exists p g c, aligned_prediction_box p g RANGE_ALIGNED = Ok c /\
  0 < dot3 (center p) (center p) /\ ~ closest_on_line (center c) (center p) (center g).
Proof. exact range_aligned_near_refuted. Qed.
Print Assumptions C61_range_aligned_near_refuted.
(** Only predictions beyond the ground truth are moved. *)
Theorem C61_further_only p g : 1 # 1000000 <= dot3 (center p) (center p) ->
  let n := dot3 (center p) (center p) in let d := dot3 (center p) (center g) in
  exists c, aligned_prediction_box p g FURTHER_ONLY = Ok c /\ same_extent c p /\
  (0 <= d /\ d < n -> closest_on_line (center c) (center p) (center g)) /\
  (~ (0 <= d /\ d < n) -> same_point (center c) (center p)).
Proof. exact (further_only p g). Qed.
Print Assumptions C61_further_only.
(** Only predictions before the ground truth, or behind the sensor, are moved. *)
Theorem C61_any_closer_only p g : 1 # 1000000 <= dot3 (center p) (center p) ->
  let n := dot3 (center p) (center p) in let d := dot3 (center p) (center g) in
  exists c, aligned_prediction_box p g ANY_CLOSER_ONLY = Ok c /\ same_extent c p /\
  (0 <= d /\ d < n -> same_point (center c) (center p)) /\
  (~ (0 <= d /\ d < n) -> closest_on_line (center c) (center p) (center g)).
Proof. exact (any_closer p g). Qed.
Print Assumptions C61_any_closer_only.
(** Only predictions between the sensor and the ground truth are moved. *)
Theorem C61_between_only p g : 1 # 1000000 <= dot3 (center p) (center p) ->
  let n := dot3 (center p) (center p) in let d := dot3 (center p) (center g) in
  exists c, aligned_prediction_box p g BETWEEN_ONLY = Ok c /\ same_extent c p /\
  (n <= d -> closest_on_line (center c) (center p) (center g)) /\
  (d < n -> same_point (center c) (center p)).
Proof. exact (between p g). Qed.
Print Assumptions C61_between_only.
(** Centre alignment moves the centre in the plane and keeps the height of the prediction ... *)
Theorem C61_center_aligned p g : exists c, aligned_prediction_box p g CENTER_ALIGNED = Ok c /\ same_extent c p /\
  center_x c = center_x g /\ center_y c = center_y g /\ center_z c = center_z p.
Proof. exact (center_aligned p g). Qed.
Print Assumptions C61_center_aligned.
(** ... so the centre need not become that of the ground truth. *)
Theorem C61_center_aligned_refuted : exists p g c,
  aligned_prediction_box p g CENTER_ALIGNED = Ok c /\ ~ same_point (center c) (center g).
Proof. exact center_aligned_refuted. Qed.
Print Assumptions C61_center_aligned_refuted.
(** The tolerant IoU is the IoU of the aligned box, in [0,1]; other box types and an unknown
    alignment are refused. *)
Theorem C61_let_iou poly p g s a t : area_contract poly ->
  (t = TYPE_3D \/ t = TYPE_2D -> a <> ALIGN_UNKNOWN ->
    exists c v, aligned_prediction_box (to_sensor s p) (to_sensor s g) a = Ok c /\ same_extent c p /\
      compute_let_iou poly p g s a t = Ok v /\ compute_iou poly c (to_sensor s g) t = Ok v /\ 0 <= v /\ v <= 1) /\
  (~ (t = TYPE_3D \/ t = TYPE_2D) \/ a = ALIGN_UNKNOWN -> compute_let_iou poly p g s a t = Err CheckFailed).
Proof. exact (let_iou poly p g s a t). Qed.
Print Assumptions C61_let_iou.

(** A prediction 12 m away against a ground truth at 10 m with tolerance 10 percent, at least 5 m. *)
Example affinity_case :
  longitudinal_affinity (bx 12 3 0) (bx 10 0 0)
    {| sensor := (0, 0, 0); tolerance_percentage := 1 # 10; min_tolerance := 5 |} 10 12 == 3 # 5.
Proof. vm_compute. reflexivity. Qed.
Example aligned_case : exists c, aligned_prediction_box (bx 12 0 0) (bx 10 1 0) FURTHER_ONLY = Ok c /\
  same_point (center c) (10, 0, 0) /\ 1 # 1000000 <= dot3 (center (bx 12 0 0)) (center (bx 12 0 0)).
Proof. eexists. split; [reflexivity|]. split; [repeat split; reflexivity|discriminate]. Qed.
