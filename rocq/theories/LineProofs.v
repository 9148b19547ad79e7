(** Distances, sides and meeting points of segments. *)
From Coq Require Import Reals Lra Lia Psatz.
From Verif Require Import Base GeomModel GeomSpec GeomBase FrameModel LineModel LineSpec.
Open Scope R_scope.

Ltac flat := unfold distance_sqr, vsqr, vdistance, times, perp, padd, psub, dot, cross, between in *; cbn [fst snd] in *.
Lemma eps_pos : 0 < kEpsilon.
Proof. unfold kEpsilon. apply Rinv_0_lt_compat. lra. Qed.
Lemma eps_eq : kEpsilon = eps. Proof. reflexivity. Qed.
Lemma veqb_iff a b : veqb a b = true <-> a = b.
Proof.
  unfold veqb. destruct a as [a1 a2], b as [b1 b2]. cbn [fst snd]. destruct (Req_EM_T a1 b1), (Req_EM_T a2 b2); cbn; split; intros H; try discriminate; try congruence.
Qed.
Lemma is_zero_iff x : is_zero x = true <-> x = 0.
Proof. unfold is_zero. destruct (Req_EM_T x 0); split; intros; congruence. Qed.
Lemma is_zero_false x : is_zero x = false <-> x <> 0.
Proof. unfold is_zero. destruct (Req_EM_T x 0); split; intros; congruence. Qed.
Lemma distance_sqr_dist a q : distance_sqr a q = dist a q ^ 2.
Proof. replace (dist a q ^ 2) with (dist a q * dist a q) by ring. rewrite dist_sqr. flat. ring. Qed.
Lemma vdistance_dist a q : vdistance a q = dist a q.
Proof. unfold vdistance. now rewrite <- dist_norm, dist_sym. Qed.
Lemma len_sqr_pos a b : a <> b -> 0 < distance_sqr a b.
Proof.
  intros H. rewrite distance_sqr_dist. assert (dist a b <> 0) by (now rewrite dist_zero). pose proof (dist_nonneg a b). nra.
Qed.
Lemma between_eq a b t : padd a (times (psub b a) t) = between a b t.
Proof. flat. f_equal; ring. Qed.

(** ** Distance *)
Theorem distance_least : forall s q, exists d, distance_to (on s) q d /\ distance_sqr_to_point s q = d ^ 2.
Proof.
  intros s q. unfold distance_sqr_to_point, on. set (a := start_ s). set (b := end_ s). destruct (veqb a b) eqn:E.
  - apply veqb_iff in E. rewrite <- E. exists (dist q a). split; [|now rewrite distance_sqr_dist, dist_sym]. split.
    + exists a. split; [apply on_segment_l|reflexivity].
    + intros x (t & T & ->). right. f_equal. unfold between. destruct a. cbn. f_equal; ring.
  - assert (N : a <> b) by (intros H; apply veqb_iff in H; congruence). unfold point_to_segment_distance_sqr.
    pose proof (len_sqr_pos a b N) as L. set (l := distance_sqr a b) in *. set (m := dot (psub q a) (psub b a)).
    cbv zeta. fold l. fold m. replace (m * (1 / l)) with (m / l) by (field; lra).
    assert (Form : forall t, dist q (between a b t) ^ 2 = distance_sqr q a - 2 * t * m + t * t * l).
    { intros t. rewrite <- distance_sqr_dist. unfold m, l. flat. ring. }
    assert (Mono : forall x y, 0 <= y -> x ^ 2 <= y ^ 2 -> x <= y) by (intros x y P Q; nra).
    assert (Ml : forall t, t * l - m = (t - m / l) * l) by (intros t; field; lra).
    destruct (rltb (m / l) 0) eqn:E0; [apply rltb_iff in E0|apply rltb_false in E0; destruct (rltb 1 (m / l)) eqn:E1; [apply rltb_iff in E1|apply rltb_false in E1]].
    + assert (Mn : m < 0) by (replace m with (m / l * l) by (field; lra); nra).
      exists (dist q a). rewrite <- distance_sqr_dist. split; [|reflexivity]. split; [exists a; split; [apply on_segment_l|reflexivity]|].
      intros x (t & T & ->). apply Mono; [apply dist_nonneg|]. rewrite Form, <- distance_sqr_dist. nra.
    + assert (Mn : l < m) by (replace m with (m / l * l) by (field; lra); nra).
      exists (dist q b). rewrite <- distance_sqr_dist. split; [|reflexivity]. split; [exists b; split; [apply on_segment_r|reflexivity]|].
      intros x (t & T & ->). apply Mono; [apply dist_nonneg|]. rewrite Form. assert (Fb : dist q b ^ 2 = distance_sqr q a - 2 * 1 * m + 1 * 1 * l) by (rewrite <- (Form 1), between_1; reflexivity). rewrite Fb.
      assert (0 <= (1 - t) * (2 * m - (1 + t) * l)) by (apply Rmult_le_pos; [lra|nra]). nra.
    + set (t0 := m / l) in *. exists (dist q (between a b t0)). assert (Et : m = t0 * l) by (unfold t0; field; lra). split.
      * split; [exists (between a b t0); split; [now exists t0|reflexivity]|].
        intros x (t & T & ->). apply Mono; [apply dist_nonneg|]. rewrite !Form. rewrite Et. assert (0 <= (t - t0) * (t - t0) * l) by (apply Rmult_le_pos; [apply Rle_0_sqr|lra]). lra.
      * rewrite Form. assert (Id : cross (psub q a) (psub b a) * cross (psub q a) (psub b a) = distance_sqr q a * l - m * m) by (unfold m, l; flat; ring).
        rewrite Id, Et. field. lra.
Qed.

(** ** Sides *)
Theorem side_exact : forall s p, let d := turn (start_ s) (end_ s) p in
  (side_of_point s p = OnLeft <-> eps <= d) /\ (side_of_point s p = OnRight <-> d <= - eps) /\ (side_of_point s p = Colinear <-> Rabs d < eps).
Proof.
  intros s p d. unfold side_of_point. rewrite <- turn_cross. fold d. pose proof eps_pos as E. rewrite <- !eps_eq.
  destruct (rleb kEpsilon (Rabs d)) eqn:A; [apply rleb_iff in A|apply rleb_false in A].
  - destruct (rltb 0 d) eqn:B; [apply rltb_iff in B; rewrite Rabs_right in * by lra|apply rltb_false in B; rewrite Rabs_left1 in * by lra];
      repeat split; intros H; try discriminate; try lra.
  - revert A. unfold Rabs. destruct (Rcase_abs d); intros A; repeat split; intros H; try discriminate; try lra.
Qed.
Lemma get_length_value s : fst (get_length s) = match length_ s with Some l => l | None => size s end.
Proof. unfold get_length, size. destruct (length_ s); cbn [fst]; [reflexivity|apply vdistance_dist]. Qed.
Lemma cross_foot u v : cross u v * cross u v <= (dot u u) * (dot v v).
Proof. assert (cross u v * cross u v + dot u v * dot u v = dot u u * dot v v) by (flat; ring). nra. Qed.
(** The signed distance from the line, positive on the right. *)
Theorem perp_distance : forall s p, length_ s = None \/ length_ s = Some (size s) ->
  (start_ s = end_ s -> fst (perp_dist s p) = Err RuntimeError) /\
  (start_ s <> end_ s -> exists r, fst (perp_dist s p) = Ok r /\ r * size s = - turn (start_ s) (end_ s) p /\
     (exists t, dist p (between (start_ s) (end_ s) t) = Rabs r) /\ forall t, Rabs r <= dist p (between (start_ s) (end_ s) t)).
Proof.
  intros s p C. unfold perp_dist. pose proof (get_length_value s) as V. destruct (get_length s) as [len s']. cbn [fst] in *.
  assert (El : len = size s) by (destruct C as [C|C]; rewrite C in V; exact V). clear V. subst len.
  rewrite <- turn_cross. set (a := start_ s) in *. set (b := end_ s) in *. assert (Sz : size s = dist a b) by reflexivity. rewrite Sz. split.
  - intros E. rewrite (proj2 (is_zero_iff _)); [reflexivity|]. now rewrite dist_zero.
  - intros N. assert (Nz : dist a b <> 0) by (now rewrite dist_zero). rewrite (proj2 (is_zero_false _)) by exact Nz. eexists. split; [reflexivity|].
    split; [field; exact Nz|]. pose proof (dist_nonneg a b) as D. assert (Dp : 0 < dist a b) by lra. pose proof (dist_sqr a b) as Q. set (L := dist a b) in *.
    assert (Key : forall t, dist p (between a b t) ^ 2 = (- turn a b p / L) ^ 2 + (t - dot (psub p a) (psub b a) / (L * L)) ^ 2 * (L * L)).
    { intros t. rewrite <- distance_sqr_dist. replace ((- turn a b p / L) ^ 2) with (turn a b p * turn a b p / (L * L)) by (field; lra).
      assert (LL : 0 < L * L) by nra. apply (Rmult_eq_reg_r (L * L)); [|lra].
      replace ((turn a b p * turn a b p / (L * L) + (t - dot (psub p a) (psub b a) / (L * L)) ^ 2 * (L * L)) * (L * L))
        with (turn a b p * turn a b p + (t * (L * L) - dot (psub p a) (psub b a)) ^ 2) by (field; lra).
      rewrite Q. unfold turn. flat. ring. }
    assert (Mono : forall x y, 0 <= y -> x ^ 2 <= y ^ 2 -> x <= y) by (intros x y P R0; nra).
    split.
    + exists (dot (psub p a) (psub b a) / (L * L)). apply Rle_antisym; apply Mono; try apply Rabs_pos; try apply dist_nonneg; rewrite pow2_abs, Key; unfold Rminus; rewrite Rplus_opp_r; nra.
    + intros t. apply Mono; [apply dist_nonneg|]. rewrite pow2_abs, Key. pose proof (pow2_ge_0 (t - dot (psub p a) (psub b a) / (L * L))). nra.
Qed.
