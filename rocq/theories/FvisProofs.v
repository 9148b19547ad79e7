(** Proofs about images of occupancy. *)
From Coq Require Import Reals Lra Psatz List Arith Lia.
From Verif Require Import Base ResultLib FvisModel FvisSpec.
Import ListNotations.
Open Scope R_scope.

(** ** Blending *)
Lemma blend_opaque eps f b a : 0 <= eps -> blend_channel eps f b a 1 = (over f a b / (1 + eps), 1).
Proof.
  intros E. unfold blend_channel, over. replace (a + 1 * (1 - a)) with 1 by ring. f_equal. f_equal. ring.
Qed.
(** Blending in general: a mix of the two colors, a little darker, and an alpha between the larger of the two and one. *)
Theorem blend_spec eps f b a c o oa : 0 < eps -> in01 f -> in01 b -> in01 a -> in01 c -> blend_channel eps f b a c = (o, oa) ->
  1 - oa = (1 - a) * (1 - c) /\ Rmax a c <= oa <= 1 /\ in01 o /\ o <= Rmax f b /\ o * (oa + eps) = f * a + b * (c * (1 - a)).
Proof.
  intros E F B A C H. unfold blend_channel in H. injection H as <- <-. unfold in01 in *.
  set (oa := a + c * (1 - a)). assert (OA : 1 - oa = (1 - a) * (1 - c)) by (unfold oa; ring).
  assert (P : 0 <= (1 - a) * (1 - c)) by (apply Rmult_le_pos; lra). assert (P2 : 0 <= c * (1 - a)) by (apply Rmult_le_pos; lra).
  assert (P3 : 0 <= a * (1 - c)) by (apply Rmult_le_pos; lra). assert (O0 : 0 <= oa) by (unfold oa; lra).
  assert (M : Rmax a c <= oa) by (unfold oa; apply Rmax_lub; nra).
  assert (D : (f * a + b * c * (1 - a)) / (oa + eps) * (oa + eps) = f * a + b * (c * (1 - a))) by (field; lra).
  set (o := (f * a + b * c * (1 - a)) / (oa + eps)) in *. clearbody o.
  assert (Q0 : 0 <= f * a) by (apply Rmult_le_pos; lra). assert (Q1 : 0 <= b * (c * (1 - a))) by (apply Rmult_le_pos; lra).
  assert (N : 0 <= o) by (destruct (Rle_or_lt 0 o) as [L|L]; [exact L|exfalso; assert (o * (oa + eps) < 0) by nra; lra]).
  assert (X : o <= Rmax f b).
  { assert (M1 := Rmax_l f b). assert (M2 := Rmax_r f b). assert (T : f * a + b * (c * (1 - a)) <= Rmax f b * oa) by (unfold oa; nra).
    destruct (Rle_or_lt o (Rmax f b)) as [L|L]; [exact L|exfalso]. assert (Rmax f b * oa < o * (oa + eps)); [|lra].
    assert (0 <= Rmax f b) by lra. nra. }
  assert (MX : Rmax f b <= 1) by (apply Rmax_lub; lra). split; [exact OA|]. split; [split; [exact M|lra]|]. split; [split; lra|]. split; [exact X|exact D].
Qed.

(** ** The power *)
Lemma pow_spec gamma x : 0 < gamma -> 0 <= x -> is_power gamma x (tf_pow x (1 / gamma)).
Proof.
  intros G X. unfold tf_pow, is_power. destruct (Req_EM_T x 0) as [->|N]; [left; split; reflexivity|right].
  split; [lra|]. unfold Rpower. split; [apply exp_pos|]. rewrite ln_exp. field. lra.
Qed.
Theorem power_unique gamma x y z : 0 < gamma -> is_power gamma x y -> is_power gamma x z -> y = z.
Proof.
  intros G [[X Y]|(X & Y & E)] [[X' Z]|(X' & Z & E')]; try lra. apply ln_inv; [exact Y|exact Z|]. apply (Rmult_eq_reg_l gamma); lra.
Qed.
Theorem power_range gamma x y : 0 < gamma -> is_power gamma x y -> in01 x -> in01 y /\ (1 <= gamma -> x <= y) /\ (gamma <= 1 -> y <= x) /\ (x = 1 -> y = 1).
Proof.
  intros G [[-> ->]|(X & Y & E)] U; [unfold in01; repeat split; lra|]. destruct U as [U0 U1].
  assert (L : ln x <= 0) by (rewrite <- ln_1; destruct U1 as [U1| ->]; [left; apply ln_increasing; lra|right; reflexivity]).
  assert (LY : ln y <= 0) by nra.
  assert (K : forall a b, 0 < a -> 0 < b -> ln a <= ln b -> a <= b).
  { intros a b A B [C|C]; [left; apply ln_lt_inv; assumption|right; apply ln_inv; assumption]. }
  split; [split; [lra|apply (K y 1); [exact Y|lra|rewrite ln_1; exact LY]]|]. split; [intros H; apply K; [exact X|exact Y|nra]|].
  split; [intros H; apply K; [exact Y|exact X|nra]|]. intros ->. rewrite ln_1 in E. assert (Z : ln y = 0) by nra. apply ln_inv; [exact Y|lra|rewrite ln_1; exact Z].
Qed.
Theorem power_order gamma x x' y y' : 0 < gamma -> is_power gamma x y -> is_power gamma x' y' -> x < x' -> y < y'.
Proof.
  intros G [[-> ->]|(X & Y & E)] [[-> ->]|(X' & Y' & E')] L; try lra. assert (M := ln_increasing x x' X L). apply ln_lt_inv; [exact Y|exact Y'|nra].
Qed.

(** ** One pixel *)
Lemma near_terms k A B C D : 1 <= k -> 0 <= A -> 0 <= B -> 0 <= C -> 0 <= D ->
  (A + B + C + D) / k ^ 4 <= A / k + B / k ^ 2 + C / k ^ 3 + D / k ^ 4 <= (A + B + C + D) / k.
Proof.
  intros K a b c d. unfold Rdiv. rewrite <- !pow_inv. assert (I0 : 0 < / k) by (apply Rinv_0_lt_compat; lra).
  assert (I1 : / k <= 1) by (rewrite <- Rinv_1; apply Rinv_le_contravar; lra). set (i := / k) in *. clearbody i.
  assert (i2 : 0 <= i ^ 2 <= i) by (cbn [pow]; nra). assert (i3 : 0 <= i ^ 3 <= i ^ 2) by (cbn [pow] in *; nra).
  assert (i4 : 0 <= i ^ 4 <= i ^ 3) by (cbn [pow] in *; nra). split; nra.
Qed.
Lemma pixel_near eps v p c r : 0 <= eps -> in01 v -> in01 p -> in01 c -> in01 r ->
  forall px, px = (let '(img, img_a) := alpha_blend eps (0, 0, 0) (1, 1, 1) (Some (gray r)) None in
                   let '(img, img_a) := alpha_blend eps (v, 0, 0) img (Some (gray v)) (Some img_a) in
                   let '(img, img_a) := alpha_blend eps (0, p * (67 / 100), 0) img (Some (gray p)) (Some img_a) in
                   let '(img, _) := alpha_blend eps (0, 0, c) img (Some (gray c)) (Some img_a) in img) ->
  near eps (red px) (red (ideal v p c r)) /\ near eps (green px) (green (ideal v p c r)) /\ near eps (blue px) (blue (ideal v p c r)).
Proof.
  intros E V P C R px H. unfold alpha_blend, gray in H. rewrite !(blend_opaque eps) in H by exact E. subst px.
  unfold in01 in *. unfold near, red, green, blue, ideal, over. cbn [fst snd].
  set (k := 1 + eps). assert (K : 1 <= k) by (unfold k; lra).
  assert (U : forall x y, 0 <= x -> 0 <= y -> 0 <= x * y) by (intros; apply Rmult_le_pos; assumption).
  assert (Z0 : 0 <= (1 - r) * (1 - v) * (1 - p) * (1 - c)) by (apply U; [apply U; [apply U|]|]; lra).
  split; [|split].
  - assert (N := near_terms k 0 0 (v * v * (1 - p) * (1 - c)) ((1 - r) * (1 - v) * (1 - p) * (1 - c)) K ltac:(lra) ltac:(lra) ltac:(apply U; [apply U; [apply U|]|]; lra) Z0).
    match goal with |- ?a <= ?x <= ?b => replace x with (0 / k + 0 / k ^ 2 + v * v * (1 - p) * (1 - c) / k ^ 3 + (1 - r) * (1 - v) * (1 - p) * (1 - c) / k ^ 4) by (field; lra);
      replace a with ((0 + 0 + v * v * (1 - p) * (1 - c) + (1 - r) * (1 - v) * (1 - p) * (1 - c)) / k ^ 4) by (f_equal; ring);
      replace b with ((0 + 0 + v * v * (1 - p) * (1 - c) + (1 - r) * (1 - v) * (1 - p) * (1 - c)) / k) by (f_equal; ring) end. exact N.
  - assert (N := near_terms k 0 (67 / 100 * p * p * (1 - c)) 0 ((1 - r) * (1 - v) * (1 - p) * (1 - c)) K ltac:(lra) ltac:(apply U; [apply U; [apply U|]|]; lra) ltac:(lra) Z0).
    match goal with |- ?a <= ?x <= ?b => replace x with (0 / k + 67 / 100 * p * p * (1 - c) / k ^ 2 + 0 / k ^ 3 + (1 - r) * (1 - v) * (1 - p) * (1 - c) / k ^ 4) by (field; lra);
      replace a with ((0 + 67 / 100 * p * p * (1 - c) + 0 + (1 - r) * (1 - v) * (1 - p) * (1 - c)) / k ^ 4) by (f_equal; ring);
      replace b with ((0 + 67 / 100 * p * p * (1 - c) + 0 + (1 - r) * (1 - v) * (1 - p) * (1 - c)) / k) by (f_equal; ring) end. exact N.
  - assert (N := near_terms k (c * c) 0 0 ((1 - r) * (1 - v) * (1 - p) * (1 - c)) K ltac:(apply U; lra) ltac:(lra) ltac:(lra) Z0).
    match goal with |- ?a <= ?x <= ?b => replace x with (c * c / k + 0 / k ^ 2 + 0 / k ^ 3 + (1 - r) * (1 - v) * (1 - p) * (1 - c) / k ^ 4) by (field; lra);
      replace a with ((c * c + 0 + 0 + (1 - r) * (1 - v) * (1 - p) * (1 - c)) / k ^ 4) by (f_equal; ring);
      replace b with ((c * c + 0 + 0 + (1 - r) * (1 - v) * (1 - p) * (1 - c)) / k) by (f_equal; ring) end. exact N.
Qed.

Lemma pixels_nth eps gamma n : forall veh ped cyc rg, List.length veh = n -> List.length ped = n -> List.length cyc = n -> List.length rg = n ->
  List.length (pixels eps gamma veh ped cyc rg) = n /\
  forall i, (i < n)%nat -> nth_error (pixels eps gamma veh ped cyc rg) i = Some (occupancy_pixel eps gamma (nth i veh 0) (nth i ped 0) (nth i cyc 0) (nth i rg 0)).
Proof.
  induction n as [|n IH]; intros [|v veh] [|p ped] [|c cyc] [|r rg] A B C D; try discriminate; [split; [reflexivity|lia]|].
  cbn [List.length] in *. destruct (IH veh ped cyc rg) as [L N]; try lia. cbn [pixels List.length]. split; [lia|]. intros [|i] I; [reflexivity|]. cbn [nth_error nth]. apply N. lia.
Qed.
Lemma layer_ok (rg : list R) l : fits (List.length rg) l -> List.length (layer (map (fun _ : R => 0) rg) l) = List.length rg /\ forall i, nth i (layer (map (fun _ : R => 0) rg) l) 0 = value_at l i.
Proof.
  destruct l as [l|]; intros F; [split; [exact F|reflexivity]|]. cbn [layer value_at]. split; [apply map_length|]. clear F. induction rg as [|r rg IH]; intros [|i]; try reflexivity. apply IH.
Qed.

(** The whole image. *)
Theorem occupancy_shows : forall eps gamma agents roads i, 0 <= eps -> 0 < gamma ->
  fits (List.length roads) (vehicles agents) -> fits (List.length roads) (pedestrians agents) -> fits (List.length roads) (cyclists agents) -> (i < List.length roads)%nat ->
  in01 (value_at (vehicles agents) i) -> in01 (value_at (pedestrians agents) i) -> in01 (value_at (cyclists agents) i) -> in01 (nth i roads 0) ->
  List.length (occupancy_rgb_image eps gamma agents roads) = List.length roads /\
  exists px v p c, nth_error (occupancy_rgb_image eps gamma agents roads) i = Some px
    /\ is_power gamma (value_at (vehicles agents) i) v /\ is_power gamma (value_at (pedestrians agents) i) p /\ is_power gamma (value_at (cyclists agents) i) c
    /\ near eps (red px) (red (ideal v p c (nth i roads 0))) /\ near eps (green px) (green (ideal v p c (nth i roads 0))) /\ near eps (blue px) (blue (ideal v p c (nth i roads 0))).
Proof.
  intros eps gamma agents roads i E G FV FP FC I V P C R. destruct (layer_ok roads _ FV) as [LV NV]. destruct (layer_ok roads _ FP) as [LP NP]. destruct (layer_ok roads _ FC) as [LC NC].
  destruct (pixels_nth eps gamma (List.length roads) _ _ _ roads LV LP LC eq_refl) as [L N]. unfold occupancy_rgb_image. split; [exact L|].
  specialize (N i I). rewrite NV, NP, NC in N. eexists. exists (tf_pow (value_at (vehicles agents) i) (1 / gamma)), (tf_pow (value_at (pedestrians agents) i) (1 / gamma)), (tf_pow (value_at (cyclists agents) i) (1 / gamma)).
  split; [exact N|]. assert (PV := pow_spec gamma _ G (proj1 V)). assert (PP := pow_spec gamma _ G (proj1 P)). assert (PC := pow_spec gamma _ G (proj1 C)).
  split; [exact PV|]. split; [exact PP|]. split; [exact PC|].
  apply (pixel_near eps _ _ _ (nth i roads 0) E); [apply (power_range gamma _ _ G PV V)|apply (power_range gamma _ _ G PP P)|apply (power_range gamma _ _ G PC C)|exact R|reflexivity].
Qed.

(** What the ideal picture is like. *)
Theorem ideal_range v p c r : in01 v -> in01 p -> in01 c -> in01 r -> in01_rgb (ideal v p c r).
Proof.
  unfold in01. intros V P C R. assert (O : forall f a b, 0 <= f <= 1 -> 0 <= a <= 1 -> 0 <= b <= 1 -> 0 <= over f a b <= 1) by (intros f a b F A B; unfold over; split; nra).
  unfold in01_rgb, in01, ideal, red, green, blue. cbn [fst snd]. split; [|split]; repeat apply O; lra.
Qed.
(** What covers a pixel fully hides what is below it; nothing at all is white. *)
Theorem ideal_top v p r :
  ideal v p 1 r = (0, 0, 1) /\ ideal v 1 0 r = (0, 67 / 100, 0) /\ ideal 1 0 0 r = (1, 0, 0) /\ ideal 0 0 0 1 = (0, 0, 0) /\ ideal 0 0 0 0 = (1, 1, 1).
Proof.
  unfold ideal, over. split; [|split; [|split; [|split]]]; f_equal; [f_equal| |f_equal| |f_equal| |f_equal| |f_equal|]; ring.
Qed.
Theorem near_exact x y : near 0 x y <-> x = y.
Proof. unfold near. rewrite Rplus_0_r, pow1. unfold Rdiv. rewrite Rinv_1, Rmult_1_r. split; [lra|intros ->; lra]. Qed.
Theorem near_close eps x y : 0 <= eps -> in01 y -> near eps x y -> in01 x /\ y - 4 * eps <= x <= y.
Proof.
  unfold near, in01. intros E Y [A B]. set (k := 1 + eps) in *. assert (K : 1 <= k) by (unfold k; lra).
  assert (I0 : 0 < / k) by (apply Rinv_0_lt_compat; lra). assert (I1 : / k <= 1) by (rewrite <- Rinv_1; apply Rinv_le_contravar; lra).
  unfold Rdiv in *. rewrite <- pow_inv in A. assert (J : / k * k = 1) by (field; lra). assert (L : 1 - eps <= / k) by (unfold k in *; nra).
  assert (i2 : 0 <= (/ k) ^ 2) by (cbn [pow]; nra). set (i := / k) in *. clearbody i.
  assert (i4 : 0 <= i ^ 4) by (cbn [pow] in *; nra).
  assert (BE : 1 - 4 * eps <= i ^ 4).
  { destruct (Rle_or_lt 1 eps) as [W|W]; [lra|]. assert (s2 : 1 - 2 * eps <= i ^ 2) by (cbn [pow]; nra). replace (i ^ 4) with (i ^ 2 * i ^ 2) by ring.
    destruct (Rle_or_lt (1 - 2 * eps) 0); nra. }
  split; [split; nra|split; nra].
Qed.

(** Defects. *)
Theorem white_refuted : exists eps gamma agents roads px, 0 < eps /\ 0 < gamma /\ occupancy_rgb_image eps gamma agents roads = [px]
  /\ agents = {| vehicles := None; pedestrians := None; cyclists := None |} /\ roads = [0] /\ red px < 1 /\ green px < 1 /\ blue px < 1.
Proof.
  exists 1, 1, {| vehicles := None; pedestrians := None; cyclists := None |}, [0]. eexists. split; [lra|]. split; [lra|]. split; [reflexivity|]. split; [reflexivity|]. split; [reflexivity|].
  unfold occupancy_pixel, tf_pow. destruct (Req_EM_T 0 0) as [_|N]; [|destruct N; reflexivity]. unfold alpha_blend, gray, red, green, blue. rewrite !(blend_opaque 1) by lra.
  cbn [fst snd]. unfold over. split; [|split]; lra.
Qed.
(** A vehicle seen as half likely is darker in red than both no vehicle and a certain one. *)
Theorem half_refuted : exists v, in01 v /\ red (ideal v 0 0 0) < red (ideal 0 0 0 0) /\ red (ideal v 0 0 0) < red (ideal 1 0 0 0).
Proof. exists (/ 2). unfold in01, ideal, red, over. cbn [fst snd]. split; [lra|split; lra]. Qed.
