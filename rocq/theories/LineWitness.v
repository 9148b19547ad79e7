(** What the tolerance and the stored headings break. *)
From Coq Require Import Reals Lra Lia Psatz.
From Verif Require Import Base GeomModel GeomSpec GeomBase FrameModel LineModel LineSpec LineProofs LineMeet LineCache.
Open Scope R_scope.

Lemma dist_ge_snd p q : Rabs (snd p - snd q) <= dist p q.
Proof. pose proof (dist_sqr p q) as Q. pose proof (dist_nonneg p q). apply sqr_le; [assumption|]. rewrite Q. replace (Rabs (snd p - snd q) * Rabs (snd p - snd q)) with ((snd p - snd q) * (snd p - snd q)) by (unfold Rabs; destruct (Rcase_abs _); ring). pose proof (Rle_0_sqr (fst p - fst q)) as G. unfold Rsqr in G. lra. Qed.
Theorem far_colinear_refuted : exists s p, start_ s <> end_ s /\ side_of_point s p = Colinear /\ forall t, 1 <= dist p (between (start_ s) (end_ s) t).
Proof.
  exists (seg_points (0, 0) (/ 10 ^ 11, 0)), (0, 1). cbn [seg_points start_ end_]. split; [intros H; injection H; intros; lra|]. split.
  - apply side_exact. unfold turn, eps. cbn [seg_points start_ end_ fst snd]. unfold Rabs. destruct (Rcase_abs _); lra.
  - intros t. pose proof (dist_ge_snd (0, 1) (between (0, 0) (/ 10 ^ 11, 0) t)) as H. unfold between in H. cbn [fst snd] in H. rewrite Rabs_right in H by lra. unfold between. cbn [fst snd]. lra.
Qed.
Theorem close_left_refuted : exists s p x, on s x /\ dist p x < eps /\ side_of_point s p = OnLeft.
Proof.
  exists (seg_points (0, 0) (100, 0)), (0, / 10 ^ 11), (0, 0). split; [apply on_segment_l|]. split.
  - apply dist_lt_sqr; [unfold eps; lra|]. unfold eps. flat. lra.
  - apply side_exact. unfold turn, eps. cbn [seg_points start_ end_ fst snd]. lra.
Qed.
Theorem tiny_cross_refuted : exists s o x, on s x /\ on o x /\ spread s o <> 0 /\ size s > 10000 * eps /\ size o > 10000 * eps /\
  intersect s o = None /\ intersect_or_coincide s o = false.
Proof.
  set (a := / 10 ^ 6). assert (A : 0 < a) by (unfold a; lra). assert (Q : a * a * 100 = eps) by (unfold a, eps; lra).
  set (s := seg_points (- a, 0) (a, 0)). set (o := seg_points (0, - a) (0, a)).
  assert (Sp : spread s o = 4 * (a * a)) by (unfold spread, s, o; cbn; ring).
  assert (Small : Rabs (spread s o) < eps) by (rewrite Sp, Rabs_right; nra).
  assert (Sz : forall p q, distance_sqr p q = 4 * (a * a) -> dist p q = 2 * a).
  { intros p q H. rewrite distance_sqr_dist in H. pose proof (dist_nonneg p q). assert ((dist p q - 2 * a) * (dist p q + 2 * a) = 0) by nra. apply Rmult_integral in H1. lra. }
  exists s, o, (0, 0). split; [exists (/ 2); split; [lra|unfold between, s; cbn; f_equal; lra]|]. split; [exists (/ 2); split; [lra|unfold between, o; cbn; f_equal; lra]|].
  split; [rewrite Sp; nra|]. split; [unfold size; rewrite Sz; [unfold eps, a; lra|unfold s; cbn [seg_points start_ end_]; flat; ring]|].
  split; [unfold size; rewrite Sz; [unfold eps, a; lra|unfold o; cbn [seg_points start_ end_]; flat; ring]|].
  split; [now apply parallel_none|]. destruct (intersect_or_coincide s o) eqn:E; [|reflexivity]. exfalso. apply (proj2 (coincide_exact s o) Small) in E.
  assert (Far : forall p y, Rabs (fst p - fst y) = a \/ Rabs (snd p - snd y) = a -> dist p y < eps -> False).
  { intros p y H D. pose proof (dist_sqr p y) as S2. pose proof (dist_nonneg p y). assert (eps < a) by (unfold eps, a; lra).
    assert ((fst p - fst y) * (fst p - fst y) = a * a \/ (snd p - snd y) * (snd p - snd y) = a * a).
    { destruct H as [H|H]; [left|right]; rewrite <- H; unfold Rabs; destruct (Rcase_abs _); ring. }
    assert (a * a <= dist p y * dist p y).
    { pose proof (Rle_0_sqr (fst p - fst y)) as G1. pose proof (Rle_0_sqr (snd p - snd y)) as G2. unfold Rsqr in G1, G2. lra. }
    nra. }
  destruct E as [(y & (t & T & ->) & D)|[(y & (t & T & ->) & D)|[(y & (t & T & ->) & D)|(y & (t & T & ->) & D)]]]; revert D; apply Far; unfold s, o, between; cbn [seg_points start_ end_ fst snd].
  - right. rewrite Rabs_left; lra.
  - right. rewrite Rabs_right; lra.
  - left. rewrite Rabs_left; lra.
  - left. rewrite Rabs_right; lra.
Qed.
Theorem might_misses_refuted : exists s o p, intersect s o = Some p /\ might_intersect s o = false.
Proof.
  pose proof eps_pos as E. rewrite eps_eq in E. pose proof (eq_refl eps) as Ev. unfold eps at 2 in Ev.
  set (s := seg_points (- 4 / 5, - 3 / 5) (- (4 / 5) * eps, - (3 / 5) * eps)).
  set (o := seg_points (4 / 5 * eps, - (3 / 5) * eps) (4 / 5, - 3 / 5)).
  exists s, o, (0, 0). assert (E1 : eps < / 100) by (unfold eps; lra). split.
  - apply intersect_exact. split; [|split; [|split; [|split]]].
    + assert (Sp : spread s o = - (24 / 25) * ((1 - eps) * (1 - eps))) by (unfold spread, s, o; cbn [seg_points start_ end_ fst snd]; field).
      rewrite Sp. rewrite Rabs_left by nra. nra.
    + exists (/ (1 - eps)). unfold s, between. cbn [seg_points start_ end_ fst snd]. f_equal; field; lra.
    + exists (- eps / (1 - eps)). unfold o, between. cbn [seg_points start_ end_ fst snd]. f_equal; field; lra.
    + exists (end_ s). split; [apply on_segment_r|]. apply dist_le_sqr; [lra|]. unfold s. cbn [seg_points end_]. flat. nra.
    + exists (start_ o). split; [apply on_segment_l|]. apply dist_le_sqr; [lra|]. unfold o. cbn [seg_points start_]. flat. nra.
  - destruct (might_intersect s o) eqn:M; [|reflexivity]. exfalso. apply might_exact in M. destruct M as (p & q & [Bp _] & [Bq _] & D & _).
    unfold s, o in Bp, Bq. cbn [seg_points start_ end_ fst snd] in Bp, Bq. rewrite Rmax_right in Bp by lra. rewrite Rmin_left in Bq by lra.
    revert D. unfold Rabs. destruct (Rcase_abs _); lra.
Qed.
Lemma normalize_PI : normalize_angle PI = - PI.
Proof.
  pose proof PI_RGT_0 as P. destruct (normalize_spec PI) as [[A B] (k & E)].
  assert (K : k = (-1)%Z). { apply Z.le_antisymm; [apply Z.lt_succ_r, lt_IZR; cbn|apply le_IZR]; nra. }
  subst k. lra.
Qed.
Lemma atan2_right x : 0 < x -> atan2 0 x = 0.
Proof. intros H. unfold atan2. rewrite (proj2 (rltb_iff _ _) H). unfold Rdiv. rewrite Rmult_0_l. apply atan_0. Qed.
Lemma atan2_left x : x < 0 -> atan2 0 x = PI.
Proof.
  intros H. unfold atan2. rewrite (proj2 (rltb_false _ _)) by lra. rewrite (proj2 (rltb_iff _ _) H). rewrite (proj2 (rleb_iff 0 0)) by lra.
  unfold Rdiv. rewrite Rmult_0_l, atan_0. ring.
Qed.
Theorem heading_history_refuted : exists s, built s /\ start_ s <> end_ s /\
  fst (get_heading (run_all s [Flip])) = PI /\ fst (get_heading (run_all s [Heading; Flip])) = - PI.
Proof.
  exists (seg_points (0, 0) (1, 0)). split; [constructor|]. split; [intros H; injection H; lra|]. split.
  - cbn. replace (0 - 0) with 0 by ring. apply atan2_left. lra.
  - cbn. replace (0 - 0) with 0 by ring. rewrite atan2_right by lra. rewrite Rplus_0_l. apply normalize_PI.
Qed.
Theorem still_heading_refuted : exists s, built s /\ start_ s = end_ s /\
  fst (get_trig (run_all s [Flip])) = (1, 0) /\ fst (get_trig (run_all s [Heading; Flip])) = (-1, 0).
Proof.
  exists (seg_points (0, 0) (0, 0)). split; [constructor|]. split; [reflexivity|].
  assert (Zr : vdistance (0, 0) (0, 0) = 0) by (rewrite vdistance_dist; now apply dist_zero).
  assert (At : atan2 (0 - 0) (0 - 0) = 0) by (unfold atan2; rewrite !(proj2 (rltb_false _ _)) by lra; reflexivity).
  split; unfold get_trig, get_inv_length, get_length; cbn; rewrite Zr, (proj2 (is_zero_iff 0) eq_refl), (proj2 (is_zero_iff 0) eq_refl); cbn.
  - rewrite At. now rewrite cos_0, sin_0.
  - rewrite At, Rplus_0_l, normalize_PI. rewrite cos_neg, sin_neg, cos_PI, sin_PI. f_equal. ring.
Qed.
Theorem negative_length_refuted : forall c h len, len < 0 ->
  fst (get_length (seg_heading c h len)) = len /\ size (seg_heading c h len) = - len /\ forall d, fst (sample (seg_heading c h len) d) = Err CheckFailed.
Proof.
  intros c h len L. split; [reflexivity|]. split.
  - change (size (seg_heading c h len)) with (size (seg_direction c (unit_from_angle h) len)). rewrite direction_size, Rabs_left by exact L.
    assert (N : norm (unit_from_angle h) = 1). { apply norm_unique; [lra|]. unfold unit_from_angle. cbn [fst snd]. pose proof (sin2_cos2 h) as P. unfold Rsqr in P. lra. }
    rewrite N. ring.
  - intros d. unfold sample. destruct (rltb d 0); [reflexivity|]. cbn. now rewrite (proj2 (rltb_iff _ _) L).
Qed.
