(** C125: images of occupancy and flow. *)
From Coq Require Import Reals Lra List Lia.
From Verif Require Import Base FvisModel FvisSpec FvisProofs FvisFlow FvisColor.
Import ListNotations.
Open Scope R_scope.
(** One layer over another. *)
Theorem C125_blend eps f b a c o oa : 0 < eps -> in01 f -> in01 b -> in01 a -> in01 c -> blend_channel eps f b a c = (o, oa) ->
  1 - oa = (1 - a) * (1 - c) /\ Rmax a c <= oa <= 1 /\ in01 o /\ o <= Rmax f b /\ o * (oa + eps) = f * a + b * (c * (1 - a)).
Proof. exact (blend_spec eps f b a c o oa). Qed.
Print Assumptions C125_blend.
(** The power of a value is unique. *)
Theorem C125_power gamma x y z : 0 < gamma -> is_power gamma x y -> is_power gamma x z -> y = z.
Proof. exact (power_unique gamma x y z). Qed.
Print Assumptions C125_power.
(** It stays between zero and one, and is larger for gamma above one. *)
Theorem C125_power_range gamma x y : 0 < gamma -> is_power gamma x y -> in01 x -> in01 y /\ (1 <= gamma -> x <= y) /\ (gamma <= 1 -> y <= x) /\ (x = 1 -> y = 1).
Proof. exact (power_range gamma x y). Qed.
Print Assumptions C125_power_range.
(** It keeps the order. *)
Theorem C125_power_order gamma x x' y y' : 0 < gamma -> is_power gamma x y -> is_power gamma x' y' -> x < x' -> y < y'.
Proof. exact (power_order gamma x x' y y'). Qed.
Print Assumptions C125_power_order.
(** Every pixel is close to the ideal picture. *)
Theorem C125_occupancy : forall eps gamma agents roads i, 0 <= eps -> 0 < gamma ->
  fits (List.length roads) (vehicles agents) -> fits (List.length roads) (pedestrians agents) -> fits (List.length roads) (cyclists agents) -> (i < List.length roads)%nat ->
  in01 (value_at (vehicles agents) i) -> in01 (value_at (pedestrians agents) i) -> in01 (value_at (cyclists agents) i) -> in01 (nth i roads 0) ->
  List.length (occupancy_rgb_image eps gamma agents roads) = List.length roads /\
  exists px v p c, nth_error (occupancy_rgb_image eps gamma agents roads) i = Some px
    /\ is_power gamma (value_at (vehicles agents) i) v /\ is_power gamma (value_at (pedestrians agents) i) p /\ is_power gamma (value_at (cyclists agents) i) c
    /\ near eps (red px) (red (ideal v p c (nth i roads 0))) /\ near eps (green px) (green (ideal v p c (nth i roads 0))) /\ near eps (blue px) (blue (ideal v p c (nth i roads 0))).
Proof. exact (occupancy_shows ). Qed.
Print Assumptions C125_occupancy.
(** The ideal picture is between zero and one. *)
Theorem C125_ideal_range v p c r : in01 v -> in01 p -> in01 c -> in01 r -> in01_rgb (ideal v p c r).
Proof. exact (ideal_range v p c r). Qed.
Print Assumptions C125_ideal_range.
(** In it, what covers a pixel fully hides what is below. *)
Theorem C125_ideal_top v p r : ideal v p 1 r = (0, 0, 1) /\ ideal v 1 0 r = (0, 67 / 100, 0) /\ ideal 1 0 0 r = (1, 0, 0) /\ ideal 0 0 0 1 = (0, 0, 0) /\ ideal 0 0 0 0 = (1, 1, 1).
Proof. exact (ideal_top v p r). Qed.
Print Assumptions C125_ideal_top.
(** Without epsilon, close means equal. *)
Theorem C125_exact x y : near 0 x y <-> x = y.
Proof. exact (near_exact x y). Qed.
Print Assumptions C125_exact.
(** With epsilon, it is at most four epsilon darker. *)
Theorem C125_close eps x y : 0 <= eps -> in01 y -> near eps x y -> in01 x /\ y - 4 * eps <= x <= y.
Proof. exact (near_close eps x y). Qed.
Print Assumptions C125_close.
(** A flow is accepted exactly with three dimensions or more and two channels. *)
Theorem C125_shape : forall shape (flows : list (list flow)) sat, (exists r, optical_flow_to_hsv shape flows sat = Ok r) <-> well_shaped shape.
Proof. exact (hsv_outcome ). Qed.
Print Assumptions C125_shape.
(** Otherwise ValueError. *)
Theorem C125_error : forall shape (flows : list (list flow)) sat e, optical_flow_to_hsv shape flows sat = Err e -> e = ValueError.
Proof. exact (hsv_error ). Qed.
Print Assumptions C125_error.
(** The direction of a flow is unique. *)
Theorem C125_direction f h h' : is_direction f h -> is_direction f h' -> h = h'.
Proof. exact (direction_unique f h h'). Qed.
Print Assumptions C125_direction.
(** Hue, saturation and value, relative to the largest length of the image. *)
Theorem C125_relative : forall shape (flows : list (list flow)) sat image f b i r, well_shaped shape -> sat < 0 -> optical_flow_to_hsv shape flows sat = Ok r ->
  nth_error flows b = Some image -> nth_error image i = Some f ->
  exists h s m n, at2 r b i = Some (h, s, 1) /\ is_direction f h /\ largest image m /\ length2 f n /\ in01 s /\ s * m = n /\ (m = 0 -> s = 0).
Proof. exact (hsv_relative ). Qed.
Print Assumptions C125_relative.
(** Hue, saturation and value for a given length. *)
Theorem C125_fixed : forall shape (flows : list (list flow)) sat image f b i r, well_shaped shape -> 0 < sat -> optical_flow_to_hsv shape flows sat = Ok r ->
  nth_error flows b = Some image -> nth_error image i = Some f ->
  exists h s n, at2 r b i = Some (h, s, 1) /\ is_direction f h /\ length2 f n /\ in01 s /\ (n <= sat -> s * sat = n) /\ (sat <= n -> s = 1).
Proof. exact (hsv_fixed ). Qed.
Print Assumptions C125_fixed.
(** Each image of a batch can be scaled without effect. *)
Theorem C125_scale : forall shape (flows : list (list flow)) sat ks, sat < 0 -> Forall (fun k => 0 < k) ks -> List.length ks = List.length flows ->
  optical_flow_to_hsv shape (map (fun kf => map (zoom (fst kf)) (snd kf)) (combine ks flows)) sat = optical_flow_to_hsv shape flows sat.
Proof. exact (scale_free ). Qed.
Print Assumptions C125_scale.
(** The color of a hue and saturation. *)
Theorem C125_rgb h s : 0 <= h <= 1 -> exists p, circle h p /\ tinted s p (hsv_to_rgb (h, s, 1)).
Proof. exact (rgb_spec h s). Qed.
Print Assumptions C125_rgb.
(** The color of a direction is unique. *)
Theorem C125_circle h p q : circle h p -> circle h q -> p = q.
Proof. exact (circle_unique h p q). Qed.
Print Assumptions C125_circle.
(** Its largest channel is one and its smallest zero. *)
Theorem C125_circle_range h p : circle h p -> in01_rgb p /\ Rmax (red p) (Rmax (green p) (blue p)) = 1 /\ Rmin (red p) (Rmin (green p) (blue p)) = 0.
Proof. exact (circle_range h p). Qed.
Print Assumptions C125_circle_range.
(** Exactly when a flow image is made. *)
Theorem C125_flow_outcome : forall eps shape flows roads trails, (exists r, flow_rgb_image eps shape flows roads trails = Ok r) <-> well_shaped shape.
Proof. exact (flow_outcome ). Qed.
Print Assumptions C125_flow_outcome.
(** Otherwise ValueError. *)
Theorem C125_flow_error : forall eps shape flows roads trails e, flow_rgb_image eps shape flows roads trails = Err e -> e = ValueError.
Proof. exact (flow_error ). Qed.
Print Assumptions C125_flow_error.
(** The image has the size of the flow. *)
Theorem C125_flow_sizes : forall eps shape flows roads trails r, flow_rgb_image eps shape flows roads trails = Ok r -> same_sizes roads flows -> same_sizes trails flows -> same_sizes r flows.
Proof. exact (flow_sizes ). Qed.
Print Assumptions C125_flow_sizes.
(** Every pixel of a flow image. *)
Theorem C125_flow : forall eps shape flows roads trails image f road trail b i r, 0 <= eps -> flow_rgb_image eps shape flows roads trails = Ok r ->
  nth_error flows b = Some image -> nth_error image i = Some f -> at2 roads b i = Some road -> at2 trails b i = Some trail ->
  exists h s m n pure color px, at2 r b i = Some px /\ is_direction (swapped f) h /\ largest image m /\ length2 f n /\ in01 s /\ s * m = n /\ (m = 0 -> s = 0)
    /\ circle h pure /\ tinted s pure color /\ darkened ((1 - road) * (1 - 2 / 10 * trail) / (1 + eps) ^ 2) color px.
Proof. exact (flow_shows ). Qed.
Print Assumptions C125_flow.
(** It is between zero and one. *)
Theorem C125_flow_range : forall eps shape flows roads trails image f road trail b i r, 0 <= eps -> flow_rgb_image eps shape flows roads trails = Ok r ->
  nth_error flows b = Some image -> nth_error image i = Some f -> at2 roads b i = Some road -> at2 trails b i = Some trail -> in01 road -> in01 trail ->
  exists px, at2 r b i = Some px /\ in01_rgb px.
Proof. exact (flow_range ). Qed.
Print Assumptions C125_flow_range.
(** A color stands for one flow. *)
Theorem C125_readable : forall eps shape flows roads trails image f g road trail b i j r, 0 <= eps -> flow_rgb_image eps shape flows roads trails = Ok r ->
  nth_error flows b = Some image -> nth_error image i = Some f -> nth_error image j = Some g ->
  at2 roads b i = Some road -> at2 roads b j = Some road -> at2 trails b i = Some trail -> at2 trails b j = Some trail -> road <> 1 -> trail < 5 ->
  at2 r b i = at2 r b j -> f = g.
Proof. exact (flow_readable ). Qed.
Print Assumptions C125_readable.
(** An empty pixel is not white. *)
Theorem C125_white_refuted : exists eps gamma agents roads px, 0 < eps /\ 0 < gamma /\ occupancy_rgb_image eps gamma agents roads = [px]
  /\ agents = {| vehicles := None; pedestrians := None; cyclists := None |} /\ roads = [0] /\ red px < 1 /\ green px < 1 /\ blue px < 1.
Proof. exact (white_refuted ). Qed.
Print Assumptions C125_white_refuted.
(** A half likely vehicle is darker than none and than a certain one. *)
Theorem C125_half_refuted : exists v, in01 v /\ red (ideal v 0 0 0) < red (ideal 0 0 0 0) /\ red (ideal v 0 0 0) < red (ideal 1 0 0 0).
Proof. exact (half_refuted ). Qed.
Print Assumptions C125_half_refuted.
(** A saturating length of zero takes away all color. *)
Theorem C125_zero_refuted : exists shape (flows : list (list flow)) f n, well_shaped shape /\ flows = [[f]] /\ length2 f n /\ 0 < n
  /\ exists h, optical_flow_to_hsv shape flows 0 = Ok [[(h, 0, 1)]].
Proof. exact (zero_refuted ). Qed.
Print Assumptions C125_zero_refuted.

(** One pixel with a certain vehicle under half a pedestrian, and one with a road. *)
Example C125_nonvacuous :
  let agents := {| vehicles := Some [1; 0]; pedestrians := Some [/ 2; 0]; cyclists := None |} in
  fits 2 (vehicles agents) /\ fits 2 (pedestrians agents) /\ fits 2 (cyclists agents) /\ in01 (value_at (pedestrians agents) 0) /\ in01 (value_at (cyclists agents) 1)
  /\ red (ideal 1 (/ 2) 0 0) = / 2.
Proof.
  cbn [vehicles pedestrians cyclists fits value_at nth List.length]. split; [reflexivity|]. split; [reflexivity|]. split; [exact Logic.I|]. unfold in01. split; [lra|]. split; [lra|].
  unfold ideal, red, over. cbn [fst snd]. lra.
Qed.
(** A batch of two images of one and two pixels. *)
Example C125_flow_nonvacuous : well_shaped [2; 1; 2; 2]%nat /\ largest [(3, 4); (0, 1)] 5 /\ same_sizes [[0; 1]; [0; 0]] [[(1, 0); (0, 1)]; [(3, 4); (0, 1)]].
Proof.
  split; [split; [cbn; lia|exists [2; 1; 2]%nat; reflexivity]|]. split; [|reflexivity]. split.
  - exists (3, 4). split; [left; reflexivity|]. split; [lra|cbn; lra].
  - intros f n [<-|[<-|[]]] [A B]; cbn [fst snd] in B; nra.
Qed.
