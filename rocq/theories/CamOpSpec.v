(** What the camera operations should do with their tensors, in terms of the camera of CamModel.v. *)
From Coq Require Import Reals ZArith List.
From Verif Require Import Base FrameModel CamModel CamOpModel.
Import ListNotations.
Open Scope R_scope.

(** The numbers of a pose as the first three rows of a matrix; the fourth can be anything. *)
Definition matrix_rows (t : pose) (last : list R) : list R :=
  let '(a, b, c) := r0 (rotation t) in let '(d, e, f) := r1 (rotation t) in let '(g, h, i) := r2 (rotation t) in
  let '(x, y, z) := translation t in
  [a; b; c; x; d; e; f; y; g; h; i; z] ++ last.
Definition triple (v : vec3) : list R := let '(x, y, z) := v in [x; y; z].
(** The numbers of dataset.proto. *)
Definition direction_number (d : shutter) (n : Z) : Prop :=
  match d with
  | TopToBottom => n = 1%Z | LeftToRight => n = 2%Z | BottomToTop => n = 3%Z | RightToLeft => n = 4%Z | GlobalShutter => n = 5%Z
  | Unknown => ~ (1 <= n <= 5)%Z
  end.
(** The documented layout (302-318). *)
Definition describes (inp : input) (c : calibration) (i : image) : Prop :=
  (exists last, length last = 4%nat /\ in_extrinsic inp = {| dims := [4; 4]%nat; cells := matrix_rows (extrinsic c) last |})
  /\ in_intrinsic inp = {| dims := [9%nat]; cells := [f_u c; f_v c; c_u c; c_v c; k1 c; k2 c; k3 c; k4 c; k5 c] |}
  /\ (exists w h n, in_metadata inp = {| dims := [3%nat]; cells := [w; h; n] |} /\ width c = IZR w /\ height c = IZR h /\ direction_number (rolling_shutter_direction c) n)
  /\ (exists last, length last = 4%nat /\ in_image_metadata inp =
        {| dims := [26%nat]; cells := matrix_rows (image_pose i) last ++ triple (v_xyz i) ++ triple (w_xyz i)
             ++ [pose_timestamp i; shutter_time i; camera_trigger_time i; camera_readout_done_time i] |}).
(** A table of points. *)
Definition table (t : tensor R) (ps : list vec3) : Prop := t = {| dims := [length ps; 3%nat]; cells := concat (map triple ps) |}.
(** The shutter can be used: it is global, or its direction is known and the edges of the image can be undistorted. *)
Definition usable (c : calibration) (i : image) : Prop := rolling_shutter_direction c = GlobalShutter \/ exists s, prepare_rolling c i = Ok s.
(** A tensor holds as many cells as its shape says. *)
Definition whole {A} (t : tensor A) : Prop := length (cells t) = fold_right Nat.mul 1%nat (dims t).
(** The row of the result for a projection: pixel, the depth if asked for, and whether it is valid. *)
Definition result_row (return_depth : bool) (r : projection) (row : list R) : Prop :=
  row = if return_depth then [fst (pixel r); snd (pixel r); depth r; if ok r then 1 else 0] else [fst (pixel r); snd (pixel r); if ok r then 1 else 0].
