(** Model of merging measurements and of turning them into metrics:
    metrics/tracking_metrics.cc and metrics/detection_metrics.cc.
    Counters are Z, float sums and ratios are exact rationals (float rounding is not modelled).
    A score cutoff is a rational that is only compared for equality (Qeq_bool). Details are opaque. *)
From Verif Require Import Base ResultLib.
Open Scope Z_scope.

(** Breakdown message: generator id, shard, difficulty level. *)
Definition breakdown := (Z * Z * Z)%type.
Definition breakdown_eqb (a b : breakdown) : bool :=
  let '(a1, a2, a3) := a in let '(b1, b2, b3) := b in (a1 =? b1) && (a2 =? b2) && (a3 =? b3).

(** A message with a breakdown and one measurement per score cutoff. *)
Record measurements (M : Type) := { bd : breakdown; ms : list M }.
Arguments bd {M}. Arguments ms {M}. Arguments Build_measurements {M}.

Section Merge.
Context {M : Type}.
Variable merge_one : M -> M -> result M.

(** Element-wise loop over equally long lists. *)
Fixpoint zipM {A} (f : A -> A -> result A) (l l' : list A) : result (list A) :=
  match l, l' with
  | a :: l, b :: l' => do c <- f a b; do cs <- zipM f l l'; Ok (c :: cs)
  | [], [] => Ok []
  | _, _ => Err CheckFailed
  end.

(** MergeTrackingMeasurements (tracking_metrics.cc:111-131) and
    MergeDetectionMeasurements (detection_metrics.cc:215-232). *)
Definition merge_measurements (m new : measurements M) : result (measurements M) :=
  match ms m with
  | [] => Ok new
  | _ =>
      if negb (Nat.eqb (length (ms m)) (length (ms new))) then Err CheckFailed else
      if negb (breakdown_eqb (bd m) (bd new)) then Err CheckFailed else
      do l <- zipM merge_one (ms m) (ms new);
      Ok {| bd := bd m; ms := l |}
  end.

(** MergeTrackingMeasurementsVector (tracking_metrics.cc:134-150). *)
Definition merge_tracking_vector (m new : list (measurements M)) : result (list (measurements M)) :=
  match m, new with
  | [], _ => Ok new
  | _, [] => Ok m
  | _, _ => zipM merge_measurements m new
  end.
(** MergeDetectionMeasurementsVector (detection_metrics.cc:235-248). *)
Definition merge_detection_vector (m new : list (measurements M)) : result (list (measurements M)) :=
  match m with
  | [] => Ok new
  | _ => zipM merge_measurements m new
  end.
End Merge.

(** ** Tracking *)
Record tmeas (D : Type) := {
  t_misses : Z; t_fps : Z; t_mismatches : Z; t_matches : Z; t_objects : Z; t_cost : Q;
  t_cutoff : Q; t_details : list D }.
Arguments t_misses {D}. Arguments t_fps {D}. Arguments t_mismatches {D}. Arguments t_matches {D}.
Arguments t_objects {D}. Arguments t_cost {D}. Arguments t_cutoff {D}. Arguments t_details {D}.

(** MergeTrackingMeasurement (tracking_metrics.cc:91-108): the details are dropped. *)
Definition merge_tracking {D} (m1 m2 : tmeas D) : result (tmeas D) :=
  if negb (Qeq_bool (t_cutoff m1) (t_cutoff m2)) then Err CheckFailed else
  Ok {| t_misses := t_misses m1 + t_misses m2; t_fps := t_fps m1 + t_fps m2;
        t_mismatches := t_mismatches m1 + t_mismatches m2; t_matches := t_matches m1 + t_matches m2;
        t_objects := t_objects m1 + t_objects m2; t_cost := (t_cost m1 + t_cost m2)%Q;
        t_cutoff := t_cutoff m1; t_details := [] |}.
(** Merging the measurements of all scenes (tracking_metrics.cc:255-263, 281-288). *)
Definition merge_scenes {D} (scenes : list (list (measurements (tmeas D)))) :=
  foldM (merge_tracking_vector merge_tracking) scenes [].

(** TrackingMetrics fields set by ToTrackingMetrics; unset proto fields are 0. *)
Record tmetrics := { mota : Q; motp : Q; miss : Q; mismatch : Q; fp : Q; m_cutoff : Q; m_objects : Z }.
Definition empty_metrics : tmetrics :=
  {| mota := 0; motp := 0; miss := 0; mismatch := 0; fp := 0; m_cutoff := 0; m_objects := 0 |}.
Definition ratio (a b : Z) : Q := (inject_Z a / inject_Z b)%Q.
(** Loop body of ToTrackingMetrics (tracking_metrics.cc:167-190). *)
Definition tracking_step {D} (acc : tmetrics) (m : tmeas D) : tmetrics :=
  if t_objects m =? 0 then acc else
  let miss_ratio := ratio (t_misses m) (t_objects m) in
  let fp_ratio := ratio (t_fps m) (t_objects m) in
  let mismatch_ratio := ratio (t_mismatches m) (t_objects m) in
  let a := (1 - (miss_ratio + fp_ratio + mismatch_ratio))%Q in
  if negb (Qle_bool a (mota acc)) then
    {| mota := a; motp := if 0 <? t_matches m then (t_cost m / inject_Z (t_matches m))%Q else 0%Q;
       miss := miss_ratio; mismatch := mismatch_ratio; fp := fp_ratio; m_cutoff := t_cutoff m;
       m_objects := t_objects m |}
  else {| mota := mota acc; motp := motp acc; miss := miss acc; mismatch := mismatch acc; fp := fp acc;
          m_cutoff := m_cutoff acc; m_objects := t_objects m |}.
Definition to_tracking_metrics {D} (l : list (tmeas D)) : tmetrics := fold_left tracking_step l empty_metrics.

(** ** Detection *)
Record dmeas (D : Type) := {
  d_cutoff : option Q; d_tps : Z; d_fps : Z; d_fns : Z; d_ha : Q; d_la : Q; d_details : list D }.
Arguments d_cutoff {D}. Arguments d_tps {D}. Arguments d_fps {D}. Arguments d_fns {D}.
Arguments d_ha {D}. Arguments d_la {D}. Arguments d_details {D}.

(** MergeDetectionMeasurement (detection_metrics.cc:186-212). *)
Definition merge_detection {D} (m1 m2 : dmeas D) : result (dmeas D) :=
  match d_cutoff m1, d_cutoff m2 with
  | None, _ => Ok m2
  | _, None => Ok m1
  | Some c1, Some c2 =>
      if negb (Qeq_bool c1 c2) then Err CheckFailed else
      Ok {| d_cutoff := Some c1; d_tps := d_tps m1 + d_tps m2; d_fps := d_fps m1 + d_fps m2;
            d_fns := d_fns m1 + d_fns m2; d_ha := (d_ha m1 + d_ha m2)%Q; d_la := (d_la m1 + d_la m2)%Q;
            d_details := if Nat.eqb (length (d_details m1)) 1 || Nat.eqb (length (d_details m2)) 1
                         then d_details m1 ++ d_details m2 else [] |}
  end.
(** Merging the measurements of all frames (detection_metrics.cc:405-415, 440-447): the first frame
    is copied, the others are merged in turn. *)
Definition merge_frames {D} (frames : list (list (measurements (dmeas D)))) :=
  foldM (merge_detection_vector merge_detection) frames [].

(** Precision and recall of one measurement in ToDetectionMetrics (detection_metrics.cc:260-311).
    [num] is num_tps, sum_ha or sum_longitudinal_affinity for the three precision variants. *)
Definition precision {D} (min_precision : Q) (num : Q) (m : dmeas D) : Q :=
  let s := d_tps m + d_fps m in
  if s <=? 0 then 0 else
  let p := (num / inject_Z s)%Q in
  if negb (Qle_bool min_precision p) then 0%Q else p.
Definition recall {D} (m : dmeas D) : Q :=
  let s := d_tps m + d_fns m in
  if s <=? 0 then 0 else ratio (d_tps m) s.
(** "If recall = 0.0, manually set precision = 1.0." *)
Definition reported {D} (min_precision : Q) (num : dmeas D -> Q) (m : dmeas D) : Q * Q :=
  let r := recall m in
  (if Qeq_bool r 0 then 1%Q else precision min_precision (num m) m, r).
