(** Images of occupancy and flow: utils/occupancy_flow_vis.py.

    Numbers are reals. An image is the list of its pixels, row after row, and a batch the list of its images, since the
    functions look at pixels one by one and at the largest value of an image only. All tensors given to one call have
    the same batch, height and width. *)
From Coq Require Import Reals List ZArith.
From Verif Require Import Base GeomModel FrameModel.
Import ListNotations.
Open Scope R_scope.

Definition rgb := (R * R * R)%type.
(** Channel by channel. *)
Definition map3 (f : R -> R) (p : rgb) : rgb := let '(a, b, c) := p in (f a, f b, f c).
Definition zip3 (f : R -> R -> R) (p q : rgb) : rgb := let '(a, b, c) := p in let '(a', b', c') := q in (f a a', f b b', f c c').
(** tf.concat([x, x, x], axis=-1). *)
Definition gray (x : R) : rgb := (x, x, x).

(** 111-144, _alpha_blend, one channel of one pixel; [eps] is tf.keras.backend.epsilon(). *)
Definition blend_channel (eps fg bg fg_a bg_a : R) : R * R :=
  let out_a := fg_a + bg_a * (1 - fg_a) in
  let out := (fg * fg_a + bg * bg_a * (1 - fg_a)) / (out_a + eps) in
  (out, out_a).
(** All channels; lines 137-140: without an alpha it is the image itself. *)
Definition alpha_blend (eps : R) (fg bg : rgb) (fg_a bg_a : option rgb) : rgb * rgb :=
  let fg_a := match fg_a with Some a => a | None => fg end in
  let bg_a := match bg_a with Some a => a | None => bg end in
  let '(f1, f2, f3) := fg in
  let '(b1, b2, b3) := bg in
  let '(x1, x2, x3) := fg_a in
  let '(y1, y2, y3) := bg_a in
  let '(o1, a1) := blend_channel eps f1 b1 x1 y1 in
  let '(o2, a2) := blend_channel eps f2 b2 x2 y2 in
  let '(o3, a3) := blend_channel eps f3 b3 x3 y3 in
  ((o1, o2, o3), (a1, a2, a3)).

(** tf.math.pow for a base that is not negative and an exponent above 0. *)
Definition tf_pow (x y : R) : R := if Req_EM_T x 0 then 0 else Rpower x y.

(** 40-68, one pixel of occupancy_rgb_image. *)
Definition occupancy_pixel (eps gamma : R) (veh ped cyc roadgraph : R) : rgb :=
  let veh := tf_pow veh (1 / gamma) in
  let ped := tf_pow ped (1 / gamma) in
  let cyc := tf_pow cyc (1 / gamma) in
  let rg_rgb := (0, 0, 0) in
  let veh_rgb := (veh, 0, 0) in
  let ped_rgb := (0, ped * (67 / 100), 0) in
  let cyc_rgb := (0, 0, cyc) in
  let bg_rgb := (1, 1, 1) in
  let '(img, img_a) := alpha_blend eps rg_rgb bg_rgb (Some (gray roadgraph)) None in
  let '(img, img_a) := alpha_blend eps veh_rgb img (Some (gray veh)) (Some img_a) in
  let '(img, img_a) := alpha_blend eps ped_rgb img (Some (gray ped)) (Some img_a) in
  let '(img, _) := alpha_blend eps cyc_rgb img (Some (gray cyc)) (Some img_a) in
  img.
(** AgentGrids: three optional layers. *)
Record grids := { vehicles : option (list R); pedestrians : option (list R); cyclists : option (list R) }.
(** 43-46: a layer that is missing is zeros. *)
Definition layer (zeros : list R) (l : option (list R)) : list R := match l with Some l => l | None => zeros end.
Fixpoint pixels (eps gamma : R) (veh ped cyc roadgraph : list R) : list rgb :=
  match veh, ped, cyc, roadgraph with
  | v :: veh', p :: ped', c :: cyc', r :: rg' => occupancy_pixel eps gamma v p c r :: pixels eps gamma veh' ped' cyc' rg'
  | _, _, _, _ => []
  end.
(** 24-68, occupancy_rgb_image. *)
Definition occupancy_rgb_image (eps gamma : R) (agents : grids) (roadgraph_image : list R) : list rgb :=
  let zeros := map (fun _ => 0) roadgraph_image in
  pixels eps gamma (layer zeros (vehicles agents)) (layer zeros (pedestrians agents)) (layer zeros (cyclists agents)) roadgraph_image.

(** ** Flow *)
Definition flow := (R * R)%type.
Definition magnitude (f : flow) : R := sqrt (fst f * fst f + snd f * snd f).
(** tf.reduce_max over height and width; without pixels TensorFlow gives minus infinity, which nothing reads. *)
Definition reduce_max (l : list R) : R := fold_right Rmax 0 l.
(** tf.math.mod, rounding down. *)
Definition floor_mod (x y : R) : R := x - y * IZR (Int_part (x / y)).
(** tf.math.divide_no_nan. *)
Definition divide_no_nan (x y : R) : R := if Req_EM_T y 0 then 0 else x / y.
Definition hsv := (R * R * R)%type.
(** 194-214, one pixel, given the magnitude that saturates. *)
Definition flow_hsv (local_saturate_magnitude : R) (f : flow) : hsv :=
  let hue := floor_mod (atan2 (snd f) (fst f)) (2 * PI) / (2 * PI) in
  let saturation := Rmin (divide_no_nan (magnitude f) local_saturate_magnitude) 1 in
  (hue, saturation, 1).
(** 195-202, per image of the batch. *)
Definition image_hsv (saturate_magnitude : R) (image : list flow) : list hsv :=
  let local := if rltb saturate_magnitude 0 then reduce_max (map magnitude image) else saturate_magnitude in
  map (flow_hsv local) image.
(** 148-215, _optical_flow_to_hsv: the shape is checked; all but the last three dimensions make up the batch. *)
Definition optical_flow_to_hsv (flow_shape : list nat) (flows : list (list flow)) (saturate_magnitude : R) : result (list (list hsv)) :=
  if Nat.ltb (List.length flow_shape) 3 then Err ValueError
  else if negb (Nat.eqb (last flow_shape 0%nat) 2) then Err ValueError
  else Ok (map (image_hsv saturate_magnitude) flows).

(** tf.image.hsv_to_rgb, the formula of TensorFlow's kernel. *)
Definition clip01 (x : R) : R := Rmin (Rmax x 0) 1.
Definition hsv_to_rgb (p : hsv) : rgb :=
  let '(h, s, v) := p in
  let dh := h * 6 in
  let dr := clip01 (Rabs (dh - 3) - 1) in
  let dg := clip01 (- Rabs (dh - 2) + 2) in
  let db := clip01 (- Rabs (dh - 4) + 2) in
  let one_s := - s + 1 in
  ((one_s + s * dr) * v, (one_s + s * dg) * v, (one_s + s * db) * v).
(** 218-226, _optical_flow_to_rgb. *)
Definition optical_flow_to_rgb (flow_shape : list nat) (flows : list (list flow)) (saturate_magnitude : R) : result (list (list rgb)) :=
  do hsvs <- optical_flow_to_hsv flow_shape flows saturate_magnitude;
  Ok (map (map hsv_to_rgb) hsvs).

(** 98-108, _add_grayscale_layer, one pixel: the one channel of [fg_a] is used for all three. *)
Definition add_grayscale_layer (eps fg_a : R) (scene_rgb : rgb) : rgb :=
  fst (alpha_blend eps (gray 0) scene_rgb (Some (gray fg_a)) (Some (gray 1))).
Fixpoint overlay (eps : R) (fg_a : list R) (scene : list rgb) : list rgb :=
  match fg_a, scene with
  | a :: fg_a', p :: scene' => add_grayscale_layer eps a p :: overlay eps fg_a' scene'
  | _, _ => []
  end.
Fixpoint overlays (eps : R) (fg_a : list (list R)) (scene : list (list rgb)) : list (list rgb) :=
  match fg_a, scene with
  | a :: fg_a', p :: scene' => overlay eps a p :: overlays eps fg_a' scene'
  | _, _ => []
  end.
(** 71-95, flow_rgb_image; line 88, tf.roll by one of two channels swaps them. *)
Definition flow_rgb_image (eps : R) (flow_shape : list nat) (flows : list (list flow)) (roadgraph_image agent_trails : list (list R)) : result (list (list rgb)) :=
  let flows := map (map (fun f => (snd f, fst f))) flows in
  do image <- optical_flow_to_rgb flow_shape flows (-1);
  let image := overlays eps roadgraph_image image in
  Ok (overlays eps (map (map (fun x => x * (2 / 10))) agent_trails) image).
