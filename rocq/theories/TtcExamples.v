(** Scenes that show what the time to collision takes from headings and from invalid steps. *)
From Coq Require Import Reals Lra Psatz List Lia Bool.
From Verif Require Import Base ResultLib GeomModel GeomSpec GeomSceneSpec GeomBase GeomExamples TtcModel TtcSpec TtcProofs.
Import ListNotations.
Open Scope R_scope.

Definition car (x h : R) : obox := {| bx := x; by_ := 0; blength := 4; bwidth := 2; bheading := h |}.
(** A car driving towards a parked one; [s] is the direction, [x0] where it was at the first step. *)
Definition drive (s h h' x0 : R) (v0 : bool) : list (list cell) :=
  [[(car x0 h, v0); (car s h, true); (car (2 * s) h, true)];
   [(car (12 * s) h', true); (car (12 * s) h', true); (car (12 * s) h', true)]].

Lemma norm_axis x : norm (x, 0) = Rabs x.
Proof. unfold norm. cbn [fst snd]. rewrite Rmult_0_l, Rplus_0_r. apply sqrt_Rsqr_abs. Qed.
Section Drive.
Variables s h h' x0 : R.
Variable v0 : bool.
Hypothesis Hs : s * s = 1.
Hypothesis Hc : cos h = s.
Hypothesis Hc' : cos h' = s.
Hypothesis Hsin : sin h = 0.
Hypothesis Hsin' : sin h' = 0.
Lemma cos_diff : cos (h' - h) = 1. Proof. rewrite cos_minus, Hc, Hc', Hsin, Hsin'. lra. Qed.
Lemma sin_diff : sin (h' - h) = 0. Proof. rewrite sin_minus, Hsin, Hsin'. lra. Qed.
Lemma self_long : long_distance (car s h) (car s h) = -4.
Proof.
  unfold long_distance, long_offset. rewrite abs_cos, abs_sin. cbn [bheading car blength bwidth bx by_].
  replace (h - h) with 0 by ring. rewrite cos_0, sin_0, Rabs_R1, Rabs_R0. unfold relative_xy, rotate_2d, psub. cbn [fst snd car bx by_]. lra.
Qed.
Lemma other_long : long_distance (car s h) (car (12 * s) h') = 7.
Proof.
  unfold long_distance, long_offset. rewrite abs_cos, abs_sin. cbn [bheading car blength bwidth bx by_].
  rewrite cos_diff, sin_diff, Rabs_R1, Rabs_R0. unfold relative_xy, rotate_2d, psub. cbn [fst snd car bx by_ bheading].
  rewrite cos_neg, sin_neg, Hc, Hsin. replace (s * (12 * s - s)) with (11 * (s * s)) by ring. rewrite Hs. lra.
Qed.
Lemma other_lat : lat_overlap (car s h) (car (12 * s) h') = -2.
Proof.
  unfold lat_overlap, lat_offset. rewrite abs_cos, abs_sin. cbn [bheading car blength bwidth bx by_].
  rewrite cos_diff, sin_diff, Rabs_R1, Rabs_R0. unfold relative_xy, rotate_2d, psub. cbn [fst snd car bx by_ bheading].
  rewrite cos_neg, sin_neg, Hc, Hsin. replace (- 0 * (12 * s - s) + s * (0 - 0)) with 0 by ring. rewrite Rabs_R0. lra.
Qed.
Definition ego_speed : R := norm ((2 * s - x0) / 2, 0) / (1 / 10).
Definition parked_speed : R := norm ((12 * s - 12 * s) / 2, (0 - 0) / 2) / (1 / 10).
Lemma parked : parked_speed = 0.
Proof. unfold parked_speed. replace ((12 * s - 12 * s) / 2) with 0 by field. replace ((0 - 0) / 2) with 0 by field. rewrite norm_axis, Rabs_R0. field. Qed.
Lemma drive_at : ttc_at (1 / 10) (drive s h h' x0 v0) [(car x0 h, v0); (car s h, true); (car (2 * s) h, true)] 1 =
  Ok (if is_followed (car s h) (car (12 * s) h', true)
      then time_to_collision 7 (Some ego_speed) (Some 0) else 5).
Proof.
  transitivity (do a <- ahead [(masked_long_distance (car s h) (car s h, true), Some (norm ((2 * s - x0) / 2, (0 - 0) / 2) / (1 / 10)));
                               (masked_long_distance (car s h) (car (12 * s) h', true), Some parked_speed)];
                Ok (time_to_collision (fst a) (Some (norm ((2 * s - x0) / 2, (0 - 0) / 2) / (1 / 10))) (snd a))); [reflexivity|].
  rewrite parked. replace ((0 - 0) / 2) with 0 by field. fold ego_speed.
  assert (E1 : masked_long_distance (car s h) (car s h, true) = 9999999996).
  { unfold masked_long_distance, is_followed, following_mask, EXTREMELY_LARGE_DISTANCE. cbn [fst snd]. rewrite self_long.
    rewrite rltb_f by lra. cbn [andb]. lra. }
  assert (E2 : masked_long_distance (car s h) (car (12 * s) h', true) = if is_followed (car s h) (car (12 * s) h', true) then 7 else 10000000007).
  { unfold masked_long_distance, EXTREMELY_LARGE_DISTANCE. cbn [fst]. rewrite other_long. destruct (is_followed _ _); lra. }
  rewrite E1, E2. cbn [ahead fold_left bind fst snd]. destruct (is_followed _ _).
  - rewrite rltb_t by lra. reflexivity.
  - rewrite rltb_f by lra. cbn [fst snd]. f_equal. unfold time_to_collision, MAXIMUM_TIME_TO_COLLISION. now rewrite rltb_f by lra.
Qed.
Lemma drive_rows r : In r (drive s h h' x0 v0) -> length r = 3%nat.
Proof. intros [<-|[<-|[]]]; reflexivity. Qed.
Lemma drive_value : exists out, compute_time_to_collision (1 / 10) 3 (drive s h h' x0 v0) [true; false] = Ok out /\
  entry out 0 1 = Some (if is_followed (car s h) (car (12 * s) h', true)
                        then time_to_collision 7 (Some ego_speed) (Some 0) else 5).
Proof.
  destruct (whole_ok (1 / 10) 3 (drive s h h' x0 v0) [true; false] eq_refl ltac:(lia) drive_rows) as [out [E _]]. exists out. split; [assumption|].
  destruct (whole_at (1 / 10) 3 (drive s h h' x0 v0) [true; false] eq_refl ltac:(lia) out E 0 1 eq_refl ltac:(lia)) as [row [d [H1 [H2 H3]]]].
  change (row_of [true; false] 0) with 0%nat in H2. rewrite H2. f_equal. injection H1 as <-. change (cell) with (obox * bool)%type in *.
  rewrite drive_at in H3. apply Ok_inj in H3. now symmetry.
Qed.
Lemma drive_near : h' = h -> is_followed (car s h) (car (12 * s) h', true) = true.
Proof.
  intros E. unfold is_followed, following_mask. cbn [fst snd]. rewrite other_long, other_lat. unfold yaw_diff. cbn [bheading car]. rewrite E.
  replace (h - h) with 0 by ring. rewrite Rabs_R0. assert (P := PI_RGT_0). unfold MAX_HEADING_DIFF, MAX_HEADING_DIFF_FOR_SMALL_OVERLAP, SMALL_OVERLAP_THRESHOLD.
  rewrite !rltb_t by lra. rewrite (proj2 (rleb_iff 0 (75 * PI / 180))) by lra. reflexivity.
Qed.
Lemma drive_far : 75 * PI / 180 < Rabs (h' - h) -> is_followed (car s h) (car (12 * s) h', true) = false.
Proof.
  intros L. unfold is_followed, following_mask. cbn [fst snd]. unfold yaw_diff. cbn [bheading car].
  replace (rleb (Rabs (h' - h)) MAX_HEADING_DIFF) with false; [now rewrite andb_false_r|]. symmetry. unfold rleb, MAX_HEADING_DIFF.
  destruct (Rle_dec _ _); [lra|reflexivity].
Qed.
End Drive.

Lemma same_car x h h' v : cos h = cos h' -> sin h = sin h' -> Rabs h <= PI -> Rabs h' <= PI -> same_placed (car x h, v) (car x h', v).
Proof.
  intros C D P Q. unfold same_placed. cbn [fst snd bx by_ bheading car]. split; [reflexivity|]. split; [|repeat (split; auto)].
  intros p. unfold footprint_of, in_rectangle. cbn [bx by_ blength bwidth bheading car]. rewrite C, D. reflexivity.
Qed.
Lemma ttc_seven : time_to_collision 7 (Some 10) (Some 0) = 7 / 10.
Proof.
  unfold time_to_collision, MAXIMUM_TIME_TO_COLLISION. rewrite rltb_t by lra. rewrite Rminus_0_r. apply Rmin_left. lra.
Qed.
Lemma ttc_zero d : time_to_collision d (Some 0) (Some 0) = 5.
Proof. unfold time_to_collision, MAXIMUM_TIME_TO_COLLISION. now rewrite rltb_f by lra. Qed.
Lemma heading_refuted : exists dt n objects objects' mask out out',
  Forall2 (Forall2 same_placed) objects objects' /\
  compute_time_to_collision dt n objects mask = Ok out /\ compute_time_to_collision dt n objects' mask = Ok out' /\
  entry out 0 1 = Some (7 / 10) /\ entry out' 0 1 = Some 5.
Proof.
  assert (P := PI_RGT_0). assert (S1 : (-1) * (-1) = 1) by lra.
  assert (C : cos (- PI) = -1) by (rewrite cos_neg; apply cos_PI). assert (D : sin (- PI) = 0) by (rewrite sin_neg, sin_PI; lra).
  destruct (drive_value (-1) PI PI 0 true S1 cos_PI cos_PI sin_PI sin_PI) as [out [E F]].
  destruct (drive_value (-1) PI (- PI) 0 true S1 cos_PI C sin_PI D) as [out' [E' F']].
  exists (1 / 10), 3%nat, (drive (-1) PI PI 0 true), (drive (-1) PI (- PI) 0 true), [true; false], out, out'.
  split; [|split; [assumption|split; [assumption|]]].
  - assert (A : Rabs PI <= PI) by (rewrite Rabs_right; lra). assert (B : Rabs (- PI) <= PI) by (rewrite Rabs_Ropp; assumption).
    assert (H1 : cos PI = cos (- PI)) by now rewrite cos_neg. assert (H2 : sin PI = sin (- PI)) by now rewrite D, sin_PI.
    unfold drive. repeat (apply Forall2_cons || apply Forall2_nil); now apply same_car.
  - rewrite F, F'. rewrite (drive_near (-1) PI PI S1 cos_PI cos_PI sin_PI sin_PI eq_refl).
    rewrite (drive_far (-1) PI (- PI)) by (rewrite Rabs_left; lra). split; [|reflexivity]. f_equal.
    unfold ego_speed. rewrite norm_axis. replace (Rabs ((2 * -1 - 0) / 2) / (1 / 10)) with 10 by (rewrite Rabs_left; lra). apply ttc_seven.
Qed.
Lemma invalid_refuted : exists dt n objects objects' mask out out',
  Forall2 (Forall2 same_when_valid) objects objects' /\ (exists b, valid_at objects 0 1 b) /\
  compute_time_to_collision dt n objects mask = Ok out /\ compute_time_to_collision dt n objects' mask = Ok out' /\
  entry out 0 1 = Some (7 / 10) /\ entry out' 0 1 = Some 5.
Proof.
  assert (S1 : 1 * 1 = 1) by lra.
  destruct (drive_value 1 0 0 0 false S1 cos_0 cos_0 sin_0 sin_0) as [out [E F]].
  destruct (drive_value 1 0 0 2 false S1 cos_0 cos_0 sin_0 sin_0) as [out' [E' F']].
  exists (1 / 10), 3%nat, (drive 1 0 0 0 false), (drive 1 0 0 2 false), [true; false], out, out'.
  split; [|split; [eexists; reflexivity|split; [assumption|split; [assumption|]]]].
  - unfold drive. repeat (apply Forall2_cons || apply Forall2_nil); split; cbn [fst snd]; try reflexivity; try discriminate.
  - rewrite F, F'. rewrite (drive_near 1 0 0 S1 cos_0 cos_0 sin_0 sin_0 eq_refl). unfold ego_speed. rewrite !norm_axis. split; f_equal.
    + replace (Rabs ((2 * 1 - 0) / 2) / (1 / 10)) with 10 by (rewrite Rabs_right; lra). apply ttc_seven.
    + replace ((2 * 1 - 2) / 2) with 0 by lra. rewrite Rabs_R0. replace (0 / (1 / 10)) with 0 by lra. apply ttc_zero.
Qed.
(** A scene that meets the hypotheses. *)
Lemma car_followed : follows (car 1 0) (car 12 0).
Proof.
  apply following_iff; cbn [car blength bwidth]; try lra. assert (S1 : 1 * 1 = 1) by lra.
  assert (H := drive_near 1 0 0 S1 cos_0 cos_0 sin_0 sin_0 eq_refl). rewrite Rmult_1_r in H. exact H.
Qed.
Lemma drive_bounded : bounded (drive 1 0 0 0 true).
Proof.
  intros g t b v H. unfold at_step, drive in H. destruct g as [|[|g]]; [| |destruct g; discriminate];
    (destruct t as [|[|[|t]]]; [| | |destruct t; discriminate]); injection H as <- <-; cbn [car bx by_ blength bwidth];
    rewrite ?Rabs_R0; repeat split; try lra; rewrite Rabs_right; lra.
Qed.
