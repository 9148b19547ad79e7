(** Model of the estimation of prediction speeds: metrics/metrics_utils.cc lines 304-374 and its callers,
    metrics/detection_metrics.cc lines 366-372 and metrics/tracking_metrics.cc lines 205-217.
    Simplification: coordinates and speeds are finite numbers; [root] is the single precision square root of the
    sum of squares, the sum itself being exact. *)
From Verif Require Import Base ResultLib CutoffModel BreakdownModel.
Open Scope list_scope.
Open Scope Z_scope.

(** The parts of an Object that are read or written (label.proto 25-62): everything the breakdowns read except the
    speed, in [body], and the optional fields of the metadata. *)
Record entry := { body : object; speed_x : option Q; speed_y : option Q; accel_x : option Q }.
(** The object as the breakdowns see it: the speed counts when both components are present (breakdown_generator.cc 217-226). *)
Definition seen (e : entry) : object :=
  let o := body e in
  {| typ := typ o; cx := cx o; cy := cy o; cz := cz o; len := len o; wid := wid o; hei := hei o;
     speed := match speed_x e, speed_y e with Some x, Some y => Some (x, y) | _, _ => None end;
     camera_name := camera_name o; most_visible := most_visible o; bearing := bearing o; score := score o |}.

(** Argmin (307-316). *)
Fixpoint argmin_from (nums : list Q) (i j : nat) (rest : list Q) : nat :=
  match rest with
  | [] => i
  | x :: rest' => argmin_from nums (if Qlt_bool x (nth i nums 0%Q) then j else i) (S j) rest'
  end.
Definition argmin (nums : list Q) : result nat :=
  match nums with
  | [] => Err CheckFailed
  | _ :: rest => Ok (argmin_from nums 0 1 rest)
  end.

(** The distance d (325-330). *)
Definition distance (root : Q -> Q) (a b : entry) : Q :=
  root (sq (cx (body a) - cx (body b)) + sq (cy (body a) - cy (body b)) + sq (cz (body a) - cz (body b)))%Q.

Definition set_speed (e : entry) (x y : Q) : entry :=
  {| body := body e; speed_x := Some x; speed_y := Some y; accel_x := accel_x e |}.
(** A missing double reads as zero. *)
Definition value_or_zero (o : option Q) : Q := match o with Some q => q | None => 0%Q end.

(** EstimateObjectSpeed of a frame (321-353). *)
Definition estimate_one (root : Q -> Q) (gts : list entry) (pd : entry) : result entry :=
  do k <- argmin (map (distance root pd) gts);
  match nth_error gts k with
  | Some g => Ok (set_speed pd (value_or_zero (speed_x g)) (value_or_zero (speed_y g)))
  | None => Err IndexError
  end.
Definition estimate (root : Q -> Q) (pds gts : list entry) : result (list entry) :=
  match gts with
  | [] => Ok (map (fun pd => set_speed pd 0 0) pds)
  | _ => mapM (estimate_one root gts) pds
  end.

(** EstimateObjectSpeed of frames (356-365). *)
Definition estimate_frames (root : Q -> Q) (pds gts : list (list entry)) : result (list (list entry)) :=
  if negb (Nat.eqb (length pds) (length gts)) then Err CheckFailed
  else mapM (fun pg => estimate root (fst pg) (snd pg)) (combine pds gts).

(** HasVelocityBreakdown (367-374). *)
Definition has_velocity_breakdown (c : config) : bool :=
  existsb (fun g => match g with VELOCITY => true | _ => false end) (generators c).

Definition missing {A} (o : option A) : bool := match o with Some _ => false | None => true end.

(** The predictions given to the matcher by ComputeDetectionMeasurements (detection_metrics.cc 367-372). The test is
    on the acceleration of the first prediction, as in the source. *)
Definition detection_predictions (root : Q -> Q) (c : config) (pds gts : list entry) : result (list entry) :=
  match pds with
  | first :: _ => if has_velocity_breakdown c && missing (accel_x first) then estimate root pds gts else Ok pds
  | [] => Ok pds
  end.

(** The predictions given to the matchers by ComputeTrackingMeasurements (tracking_metrics.cc 200, 205-217). *)
Definition need_to_estimate_speed (c : config) (pds : list (list entry)) : bool :=
  match pds with
  | (first :: _) :: _ => has_velocity_breakdown c && missing (speed_x first)
  | _ => false
  end.
Definition tracking_predictions (root : Q -> Q) (c : config) (pds gts : list (list entry)) : result (list (list entry)) :=
  if negb (Nat.eqb (length pds) (length gts)) then Err CheckFailed
  else if need_to_estimate_speed c pds then estimate_frames root pds gts else Ok pds.
