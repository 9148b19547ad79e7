(** Line segments of the plane: the properties. *)
From Coq Require Import Reals Lra.
From Verif Require Import Base GeomModel GeomSpec LineModel LineSpec LineProofs LineMeet LineCache LineWitness.
Open Scope R_scope.

(** ** C99: distance and side of a point *)
Theorem C99_least_distance : forall s q, exists d, distance_to (on s) q d /\ distance_sqr_to_point s q = d ^ 2.
Proof. exact distance_least. Qed.
Print Assumptions C99_least_distance.
Theorem C99_side : forall s p, let d := turn (start_ s) (end_ s) p in
  (side_of_point s p = OnLeft <-> eps <= d) /\ (side_of_point s p = OnRight <-> d <= - eps) /\ (side_of_point s p = Colinear <-> Rabs d < eps).
Proof. exact side_exact. Qed.
Print Assumptions C99_side.
Theorem C99_line_distance : forall s p, length_ s = None \/ length_ s = Some (size s) ->
  (start_ s = end_ s -> fst (perp_dist s p) = Err RuntimeError) /\
  (start_ s <> end_ s -> exists r, fst (perp_dist s p) = Ok r /\ r * size s = - turn (start_ s) (end_ s) p /\
     (exists t, dist p (between (start_ s) (end_ s) t) = Rabs r) /\ forall t, Rabs r <= dist p (between (start_ s) (end_ s) t)).
Proof. exact perp_distance. Qed.
Print Assumptions C99_line_distance.
Theorem C99_far_colinear_refuted : exists s p, start_ s <> end_ s /\ side_of_point s p = Colinear /\ forall t, 1 <= dist p (between (start_ s) (end_ s) t).
Proof. exact far_colinear_refuted. Qed.
Print Assumptions C99_far_colinear_refuted.
Theorem C99_close_left_refuted : exists s p x, on s x /\ dist p x < eps /\ side_of_point s p = OnLeft.
Proof. exact close_left_refuted. Qed.
Print Assumptions C99_close_left_refuted.
Example C99_case : side_of_point (seg_points (0, 0) (2, 0)) (1, 1) = OnLeft /\ start_ (seg_points (0, 0) (2, 0)) <> end_ (seg_points (0, 0) (2, 0)) /\
  length_ (seg_points (0, 0) (2, 0)) = None.
Proof.
  split; [apply side_exact; unfold turn, eps; cbn [seg_points start_ end_ fst snd]; lra|]. split; [|reflexivity].
  cbn [seg_points start_ end_]. intros H. injection H. lra.
Qed.

(** ** C100: where segments meet *)
Theorem C100_exact : forall s o p,
  intersect s o = Some p <-> eps <= Rabs (spread s o) /\
    (exists t, p = between (start_ s) (end_ s) t) /\ (exists u, p = between (start_ o) (end_ o) u) /\ near eps s p /\ near eps o p.
Proof. exact intersect_exact. Qed.
Print Assumptions C100_exact.
Theorem C100_common_point : forall s o x, eps <= Rabs (spread s o) -> on s x -> on o x -> intersect s o = Some x.
Proof. exact common_point. Qed.
Print Assumptions C100_common_point.
Theorem C100_parallel : forall s o, Rabs (spread s o) < eps -> intersect s o = None.
Proof. exact parallel_none. Qed.
Print Assumptions C100_parallel.
Theorem C100_symmetric : forall s o, intersect o s = intersect s o /\
  forall s', start_ s' = end_ s -> end_ s' = start_ s -> intersect s' o = intersect s o /\ intersect o s' = intersect o s.
Proof. exact intersect_symmetric. Qed.
Print Assumptions C100_symmetric.
Theorem C100_coincide : forall s o,
  (eps <= Rabs (spread s o) -> (intersect_or_coincide s o = true <-> exists p, intersect s o = Some p)) /\
  (Rabs (spread s o) < eps -> (intersect_or_coincide s o = true <->
     (exists y, on s y /\ dist (start_ o) y < eps) \/ (exists y, on s y /\ dist (end_ o) y < eps) \/
     (exists y, on o y /\ dist (start_ s) y < eps) \/ (exists y, on o y /\ dist (end_ s) y < eps))).
Proof. exact coincide_exact. Qed.
Print Assumptions C100_coincide.
Theorem C100_coincide_symmetric : forall s o, intersect_or_coincide o s = intersect_or_coincide s o.
Proof. exact coincide_symmetric. Qed.
Print Assumptions C100_coincide_symmetric.
Theorem C100_coincide_parallel : forall s o, spread s o = 0 -> meet s o -> intersect_or_coincide s o = true.
Proof. exact coincide_parallel. Qed.
Print Assumptions C100_coincide_parallel.
Theorem C100_coincide_near : forall s o, intersect_or_coincide s o = true -> exists x y, on s x /\ on o y /\ dist x y <= 2 * eps.
Proof. exact coincide_near. Qed.
Print Assumptions C100_coincide_near.
Theorem C100_might : forall s o, might_intersect s o = true <->
  exists p q, in_bounds s p /\ in_bounds o q /\ Rabs (fst p - fst q) <= eps /\ Rabs (snd p - snd q) <= eps.
Proof. exact might_exact. Qed.
Print Assumptions C100_might.
Theorem C100_might_necessary : forall s o, meet s o -> might_intersect s o = true.
Proof. exact might_necessary. Qed.
Print Assumptions C100_might_necessary.
Theorem C100_tiny_cross_refuted : exists s o x, on s x /\ on o x /\ spread s o <> 0 /\ size s > 10000 * eps /\ size o > 10000 * eps /\
  intersect s o = None /\ intersect_or_coincide s o = false.
Proof. exact tiny_cross_refuted. Qed.
Print Assumptions C100_tiny_cross_refuted.
Theorem C100_might_misses_refuted : exists s o p, intersect s o = Some p /\ might_intersect s o = false.
Proof. exact might_misses_refuted. Qed.
Print Assumptions C100_might_misses_refuted.
Example C100_case : let s := seg_points (0, 0) (2, 2) in let o := seg_points (0, 2) (2, 0) in
  eps <= Rabs (spread s o) /\ on s (1, 1) /\ on o (1, 1) /\ spread s s = 0 /\ meet s s.
Proof.
  cbv zeta. unfold meet, spread, on, on_segment, between, eps. cbn [seg_points start_ end_ fst snd]. split; [rewrite Rabs_left; lra|].
  split; [exists (/ 2); split; [lra|f_equal; lra]|]. split; [exists (/ 2); split; [lra|f_equal; lra]|]. split; [ring|].
  exists (1, 1). split; exists (/ 2); (split; [lra|f_equal; lra]).
Qed.

(** ** C101: moving segments and stored values *)
Theorem C101_histories : forall s cs, built s -> truthful (run_all s cs) /\ ends (run_all s cs) = fold_left (fun e c => effect c e) cs (ends s).
Proof. exact histories. Qed.
Print Assumptions C101_histories.
Theorem C101_values : forall s, truthful s ->
  fst (get_length s) = size s /\ fst (get_inv_length s) = (if Req_EM_T (size s) 0 then 0 else / size s) /\ get_sqr s = size s ^ 2 /\
  leads s (fst (get_heading s)) /\
  (let c := fst (get_trig s) in fst (end_ s) - fst (start_ s) = size s * fst c /\ snd (end_ s) - snd (start_ s) = size s * snd c /\ fst c * fst c + snd c * snd c = 1) /\
  (start_ s = end_ s -> fst (get_tangent s) = (0, 0) /\ fst (get_perp_unit s) = (0, 0)) /\
  (start_ s <> end_ s -> forall h, leads s h -> fst (get_tangent s) = (cos h, sin h) /\ fst (get_perp_unit s) = (- sin h, cos h)).
Proof. exact values. Qed.
Print Assumptions C101_values.
Theorem C101_direction : forall c d len,
  (truthful (seg_direction c d len) <-> len = 0 \/ (0 < len /\ fst d * fst d + snd d * snd d = 1)) /\
  fst (get_length (seg_direction c d len)) = len /\ size (seg_direction c d len) = Rabs len * dist d (0, 0).
Proof. exact direction_exact. Qed.
Print Assumptions C101_direction.
Theorem C101_heading : forall s h h', start_ s <> end_ s -> leads s h -> leads s h' -> whole_turns h' h.
Proof. exact heading_turns. Qed.
Print Assumptions C101_heading.
Theorem C101_heading_history_refuted : exists s, built s /\ start_ s <> end_ s /\
  fst (get_heading (run_all s [Flip])) = PI /\ fst (get_heading (run_all s [Heading; Flip])) = - PI.
Proof. exact heading_history_refuted. Qed.
Print Assumptions C101_heading_history_refuted.
Theorem C101_still_heading_refuted : exists s, built s /\ start_ s = end_ s /\
  fst (get_trig (run_all s [Flip])) = (1, 0) /\ fst (get_trig (run_all s [Heading; Flip])) = (-1, 0).
Proof. exact still_heading_refuted. Qed.
Print Assumptions C101_still_heading_refuted.
Theorem C101_negative_length_refuted : forall c h len, len < 0 ->
  fst (get_length (seg_heading c h len)) = len /\ size (seg_heading c h len) = - len /\ forall d, fst (sample (seg_heading c h len) d) = Err CheckFailed.
Proof. exact negative_length_refuted. Qed.
Print Assumptions C101_negative_length_refuted.
Example C101_case : built (seg_heading (1, 2) 5 3) /\ built (seg_points (0, 0) (3, 4)) /\ built (seg_direction (0, 0) (3 / 5, 4 / 5) 2) /\
  ends (run_all (seg_points (0, 0) (3, 4)) [Length; Flip; Shift (1, 1); Heading]) = ((4, 5), (1, 1)).
Proof.
  split; [constructor; lra|]. split; [constructor|]. split; [constructor; cbn; lra|]. cbn. unfold ends, padd. cbn [fst snd start_ end_]. apply pair_equal_spec; split; apply pair_equal_spec; split; lra.
Qed.

(** ** C102: samples of a segment *)
Theorem C102_sample : forall s d, truthful s ->
  (d < 0 -> fst (sample s d) = Err CheckFailed) /\
  (0 <= d -> start_ s = end_ s -> fst (sample s d) = Ok (false, start_ s)) /\
  (0 <= d -> start_ s <> end_ s -> exists b p, fst (sample s d) = Ok (b, p) /\ (b = true <-> d < size s) /\
     p = between (start_ s) (end_ s) (d / size s) /\ dist (start_ s) p = d /\ (on s p <-> d <= size s)).
Proof. exact sample_spec. Qed.
Print Assumptions C102_sample.
Theorem C102_points : forall a b d,
  (d <= 0 -> sample_points a b d = Err CheckFailed) /\
  (0 < d -> a = b -> sample_points a b d = Ok [a]) /\
  (0 < d -> a <> b -> exists n, dist a b <= INR n * d /\ (forall k, (k < n)%nat -> INR k * d < dist a b) /\
     sample_points a b d = Ok (map (fun k => between a b (INR k * d / dist a b)) (seq 0 n)) /\
     (forall k, (S k < n)%nat -> dist (between a b (INR k * d / dist a b)) (between a b (INR (S k) * d / dist a b)) = d) /\
     (forall k, (k < n)%nat -> on_segment a b (between a b (INR k * d / dist a b)) /\ between a b (INR k * d / dist a b) <> b) /\
     dist (between a b (INR (pred n) * d / dist a b)) b <= d).
Proof. exact sample_points_spec. Qed.
Print Assumptions C102_points.
Example C102_case : truthful (seg_points (0, 0) (3, 4)) /\ start_ (seg_points (0, 0) (3, 4)) <> end_ (seg_points (0, 0) (3, 4)).
Proof.
  split; [apply built_truthful; constructor|]. cbn [seg_points start_ end_]. intros H. injection H. lra.
Qed.
