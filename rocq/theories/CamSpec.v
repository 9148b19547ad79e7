(** What a camera with a lens and a rolling shutter does, independently of how the projection is computed. *)
From Coq Require Import Reals List.
From Verif Require Import Base FrameModel FrameSpec CamModel.
Open Scope R_scope.

(** ** The lens: the distortion of OpenCV of a direction (u, v), that is of the ray through (1, -u, -v). *)
Definition lens_factor (c : calibration) (u v : R) : R :=
  let s := u ^ 2 + v ^ 2 in 1 + k1 c * s + k2 c * s ^ 2 + k5 c * s ^ 3.
Definition distorted (c : calibration) (n : R * R) : R * R :=
  let '(u, v) := n in
  let s := u ^ 2 + v ^ 2 in
  (u * lens_factor c u v + (2 * k3 c * u * v + k4 c * (s + 2 * u ^ 2)),
   v * lens_factor c u v + (k3 c * (s + 2 * v ^ 2) + 2 * k4 c * u * v)).
Definition pixel_of (c : calibration) (n : R * R) : R * R :=
  (fst (distorted c n) * f_u c + c_u c, snd (distorted c n) * f_v c + c_v c).
Definition trusted (c : calibration) (n : R * R) : Prop := 8 / 10 <= lens_factor c (fst n) (snd n) <= 12 / 10.
Definition inside (c : calibration) (q : R * R) : Prop := 0 <= fst q < width c /\ 0 <= snd q < height c.
Definition plain (c : calibration) : Prop := k1 c = 0 /\ k2 c = 0 /\ k3 c = 0 /\ k4 c = 0 /\ k5 c = 0.
Definition sane (c : calibration) : Prop := 0 < f_u c /\ 0 < f_v c /\ 0 < width c /\ 0 < height c.

(** ** Sight: when the pose was taken, the point [p] of the world lay in the direction [n] at depth [d]. *)
Definition ray (n : R * R) (d : R) : vec3 := (d, - fst n * d, - snd n * d).
Definition sees (c : calibration) (i : image) (p : vec3) (n : R * R) (d : R) : Prop :=
  p = world (image_pose i) (world (extrinsic c) (ray n d)).
Definition solid_frames (c : calibration) (i : image) : Prop := proper (rotation (image_pose i)) /\ proper (rotation (extrinsic c)).

(** ** Motion: the extrapolation of dataset.proto, r + dt v and (I + dt W) R, where W crosses with [w]. *)
Definition turned (w : vec3) (dt : R) (p : vec3) : vec3 := add3 p (scale3 dt (outer w p)).
Definition vehicle_point (i : image) (w : vec3) (dt : R) (p : vec3) : vec3 :=
  add3 (turned w dt (mulv (rotation (image_pose i)) p)) (add3 (translation (image_pose i)) (scale3 dt (v_xyz i))).
(** A point of the camera frame, in the world at [dt] after the pose. *)
Definition camera_point (c : calibration) (i : image) (w : vec3) (dt : R) (p : vec3) : vec3 :=
  vehicle_point i w dt (world (extrinsic c) p).
(** The angular velocity of the image as a vector of the world, if its numbers are those of the world, and if they
    are those of the vehicle. *)
Definition rate_as_documented (i : image) : vec3 := w_xyz i.
Definition rate_of_vehicle (i : image) : vec3 := mulv (rotation (image_pose i)) (w_xyz i).
Definition not_turning (i : image) : Prop := w_xyz i = (0, 0, 0).

(** ** The shutter: when a pixel is read, in the middle of its exposure. *)
Definition progress (c : calibration) (q : R * R) : R :=
  match rolling_shutter_direction c with
  | TopToBottom => snd q / height c
  | BottomToTop => 1 - snd q / height c
  | LeftToRight => fst q / width c
  | RightToLeft => 1 - fst q / width c
  | _ => 0
  end.
Definition rolls (c : calibration) : Prop :=
  match rolling_shutter_direction c with TopToBottom | BottomToTop | LeftToRight | RightToLeft => True | _ => False end.
Definition first_time (i : image) : R := camera_trigger_time i + shutter_time i / 2.
Definition last_time (i : image) : R := camera_readout_done_time i - shutter_time i / 2.
Definition read_time (c : calibration) (i : image) (q : R * R) : R :=
  first_time i + progress c q * (last_time i - first_time i).
Definition since_pose (c : calibration) (i : image) (q : R * R) : R := read_time c i q - pose_timestamp i.

(** At [dt] after the pose the point, which moves with [v], is in the direction [n] at depth [d]. *)
Definition seen_at (c : calibration) (i : image) (w : vec3) (dt : R) (p v : vec3) (n : R * R) (d : R) : Prop :=
  add3 p (scale3 dt v) = camera_point c i w dt (ray n d).
(** The point is caught by the pixel [q]: it is there when that pixel is read. *)
Definition caught (c : calibration) (i : image) (w : vec3) (p v : vec3) (q : R * R) (d : R) : Prop :=
  exists n, pixel_of c n = q /\ seen_at c i w (since_pose c i q) p v n d.
