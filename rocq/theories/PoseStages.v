(** The two passes of the matcher. *)
From Coq Require Import Reals Lra Psatz List Arith Lia Bool ZArith Permutation.
From Verif Require Import Base ResultLib GeomModel GeomBase PoseModel PoseSpec PoseReorder PoseBox PoseMatch.
Import ListNotations.
Open Scope R_scope.

Lemma clip_excess h x : 0 <= h -> (clip (- h) h x - x) * (clip (- h) h x - x) = Rmax 0 (Rabs x - h) * Rmax 0 (Rabs x - h).
Proof.
  intros H. destruct (Rle_dec (Rabs x) h) as [L|L].
  - assert (B : - h <= x <= h) by (unfold Rabs in L; destruct (Rcase_abs x); lra).
    unfold clip. rewrite Rmin_left by lra. rewrite (Rmax_left x) by lra. rewrite Rmax_left by lra. ring.
  - rewrite (Rmax_right 0) by lra. unfold Rabs in *. unfold clip. destruct (Rcase_abs x).
    + rewrite Rmin_left by lra. rewrite Rmax_right by lra. ring.
    + rewrite Rmin_right by lra. rewrite Rmax_left by lra. ring.
Qed.
Theorem displacement_distance p b : sane_box b -> vnorm (box_displacement p b) = box_distance b p.
Proof.
  intros (HX & HY & HZ). destruct (displacement_nearest p b HX HY HZ) as (_ & E & _). rewrite E, add_back.
  rewrite <- (frame_dist b), dist3_sym. unfold nearest. rewrite apply_back. unfold clipped, dist3, box_distance. cbv zeta. cbn [fst snd].
  unfold vx, vy, vz.
  rewrite !clip_excess by lra. reflexivity.
Qed.
Theorem distance_nearest b p : sane_box b ->
  (exists y, in_box_clockwise b y /\ dist3 p y = box_distance b p) /\ forall z, in_box_clockwise b z -> box_distance b p <= dist3 p z.
Proof.
  intros HB. pose proof HB as (HX & HY & HZ). rewrite <- displacement_distance by auto.
  destruct (displacement_nearest p b HX HY HZ) as (A & B & C). rewrite B. split; eauto.
Qed.
Lemma sane_at boxes i : Forall sane_box boxes -> sane_box (box_at boxes i).
Proof.
  intros F. unfold box_at. destruct (nth_in_or_default i boxes no_box) as [I|E]; [now apply (proj1 (Forall_forall _ _) F) | rewrite E; unfold sane_box; cbn; lra].
Qed.
Lemma box_at_eq boxes i : nth i boxes zero_box = box_at boxes i.
Proof. reflexivity. Qed.
Lemma closest_near d boxes pr i j : Forall sane_box boxes ->
  closest_mask d boxes pr i j = true <-> near_box d (box_at boxes i) (person_at pr j).
Proof.
  intros F. unfold closest_mask. rewrite box_at_eq. change (nth_person pr j) with (person_at pr j). rewrite reduce_min_le. unfold near_box. split.
  - intros (x & I & L). apply row_In in I. destruct I as (k & I & V & ->). rewrite displacement_distance in L by now apply sane_at. eauto.
  - intros (k & I & V & L). exists (vnorm (box_displacement (place k) (box_at boxes i))). split; [apply row_In; eauto|].
    rewrite displacement_distance by now apply sane_at. auto.
Qed.
Lemma inside_eq boxes pr i j : Forall sane_box boxes -> INR (n_points_inside boxes pr i j) = inside_count (box_at boxes i) (person_at pr j).
Proof.
  intros F. unfold n_points_inside, keypoint_distance, inside_count. rewrite box_at_eq. change (nth_person pr j) with (person_at pr j).
  induction (person_at pr j) as [|k o IH]; [reflexivity|]. cbn [map filter]. rewrite sum_cons, <- IH. rewrite vis_eq. destruct (visible k); [|lra].
  change (location k) with (place k). rewrite displacement_distance by now apply sane_at. unfold rltb, eps_m.
  destruct (Rlt_dec _ _); [|lra]. cbn [length]. rewrite S_INR. lra.
Qed.
Lemma near_iff d g p : near d g p = true <-> close_people d g p.
Proof.
  unfold near, close_people. rewrite existsb_exists. split.
  - intros (kk & I & H). apply andb_true_iff in H. destruct H as [H L]. apply andb_true_iff in H. destruct H as [A B]. apply rltb_iff in L. exists kk. auto.
  - intros (kk & I & A & B & L). exists kk. split; auto. rewrite (vis_eq (fst kk)), (vis_eq (snd kk)), A, B. cbn. now apply rltb_iff.
Qed.
Lemma allowed_iff d gt pr i j : gti_and_not_gtv_close d gt pr i j = true <-> first_allowed d gt pr (i, j).
Proof.
  unfold gti_and_not_gtv_close, first_allowed. cbn [fst snd]. rewrite andb_true_iff, !negb_true_iff. change (nth_person pr j) with (person_at pr j).
  change (has_visible (nth_person gt i)) with (shows (person_at gt i)). split.
  - intros (A & B). split; auto. intros g I C. apply near_iff in C. assert (existsb (fun g => near d g (person_at pr j)) gt = true) by (apply existsb_exists; eauto). congruence.
  - intros (A & B). split; auto. destruct (existsb _ gt) eqn:E; auto. apply existsb_exists in E. destruct E as (g & I & E). apply near_iff in E. destruct (B g I E).
Qed.
Lemma inside_nonneg b o : 0 <= inside_count b o.
Proof. apply sum_nonneg. intros k _. destruct (visible k); [destruct (Rlt_dec _ _)|]; lra. Qed.
Lemma score_allowed d boxes gt pr m : Forall sane_box boxes -> first_allowed d gt pr m ->
  n_point_score d boxes gt pr (fst m) (snd m) = inside_count (box_at boxes (fst m)) (person_at pr (snd m)).
Proof.
  intros F A. unfold n_point_score. replace m with (fst m, snd m) in A by (destruct m; reflexivity). apply allowed_iff in A. rewrite A. now apply inside_eq.
Qed.
Lemma score_pos d boxes gt pr i j : Forall sane_box boxes -> 0 < n_point_score d boxes gt pr i j ->
  first_allowed d gt pr (i, j) /\ 0 < inside_count (box_at boxes i) (person_at pr j).
Proof.
  intros F. unfold n_point_score. destruct (gti_and_not_gtv_close d gt pr i j) eqn:E; [|lra]. intros L. split; [now apply allowed_iff|]. now rewrite <- inside_eq.
Qed.
Lemma score_nonneg d boxes gt pr i j : 0 <= n_point_score d boxes gt pr i j.
Proof. unfold n_point_score. destruct (gti_and_not_gtv_close d gt pr i j); [apply pos_INR | lra]. Qed.
Lemma used_iff m i j : used m i j = true <-> exists n, In n m /\ (fst n = i \/ snd n = j).
Proof.
  unfold used. rewrite orb_true_iff, !existsb_exists. split.
  - intros [(n & I & E)|(n & I & E)]; apply Nat.eqb_eq in E; eauto.
  - intros (n & I & [E|E]); [right | left]; exists n; split; auto; apply Nat.eqb_eq; auto.
Qed.
Lemma filter_andb {A} (f g : A -> bool) l : (forall a, In a l -> f a = true -> g a = true) -> filter g (filter f l) = filter f l.
Proof.
  induction l as [|a l IH]; cbn; auto. intros H. assert (K : filter g (filter f l) = filter f l) by (apply IH; intros; apply H; auto).
  destruct (f a) eqn:E; cbn; [rewrite (H a), K; auto | auto].
Qed.

Section Stages.
  Variables (assign : solver) (d : R) (boxes : list box3) (gt pr : list person) (n : nat).
  Hypotheses (HS : solves assign) (HD0 : 0 < d) (HD1 : d <= 10000000000) (HN : (0 < n)%nat) (HB : Forall sane_box boxes)
    (RG : rectangular n gt) (RP : rectangular n pr).
  Let m1 := stage1 assign d boxes gt pr.
  Let cand := fun i j => closest_mask d boxes pr i j && negb (used m1 i j).
  Let m2 := mean_error_matching assign gt pr n cand d.

  Lemma stage1_matching : matching m1 (length gt) (length pr).
  Proof. apply matching_filter, matching_filter. destruct (HS (length gt) (length pr) (n_point_score d boxes gt pr)) as (_ & (A & _) & _). exact A. Qed.
  Lemma stage1_eq : m1 = filter (fun ij => rltb 0 (n_point_score d boxes gt pr (fst ij) (snd ij))) (assign true (length gt) (length pr) (n_point_score d boxes gt pr)).
  Proof.
    unfold m1, stage1, hungarian_assignment. apply filter_andb. intros m _ E. apply rltb_iff in E. apply score_pos in E; auto.
    destruct E as ((E & _) & _). cbn [fst] in E. change (has_visible (nth_person gt (fst m))) with (shows (person_at gt (fst m))). now rewrite E.
  Qed.
  Lemma stage1_pair m : In m m1 -> first_allowed d gt pr m /\ 0 < inside_count (box_at boxes (fst m)) (person_at pr (snd m)).
  Proof. rewrite stage1_eq. intros I. apply filter_In in I. destruct I as [_ E]. apply rltb_iff in E. destruct m as [i j]. cbn [fst snd] in *. now apply score_pos in E. Qed.
  Lemma stage1_best M : matching M (length gt) (length pr) -> (forall m, In m M -> first_allowed d gt pr m) ->
    sum_of (fun m => inside_count (box_at boxes (fst m)) (person_at pr (snd m))) M <=
    sum_of (fun m => inside_count (box_at boxes (fst m)) (person_at pr (snd m))) m1.
  Proof.
    intros HM HA. pose proof (best_max assign (length gt) (length pr) (n_point_score d boxes gt pr) M HS (score_nonneg d boxes gt pr) HM) as L.
    rewrite <- stage1_eq in L. unfold cost_of in L.
    rewrite (sum_ext _ (fun m => inside_count (box_at boxes (fst m)) (person_at pr (snd m))) M) in L by (intros m I; apply score_allowed; auto).
    rewrite (sum_ext _ (fun m => inside_count (box_at boxes (fst m)) (person_at pr (snd m))) m1) in L by (intros m I; apply score_allowed; auto; now apply stage1_pair).
    exact L.
  Qed.
  Lemma stage2_matching : matching m2 (length gt) (length pr).
  Proof.
    unfold m2, mean_error_matching. destruct (Nat.eqb (length pr) 0); [apply matching_nil|]. apply matching_filter.
    destruct (HS (length gt) (length pr) (mean_error gt pr n cand d)) as ((A & _) & _). exact A.
  Qed.
  Lemma stage2_pair m : In m m2 -> near_box d (box_at boxes (fst m)) (person_at pr (snd m)) /\
    pair_error d (person_at gt (fst m)) (person_at pr (snd m)) < d * INR n /\ (forall k, In k m1 -> fst m <> fst k /\ snd m <> snd k).
  Proof.
    intros I. destruct stage2_matching as (_ & _ & B). destruct (B m I) as [B1 B2].
    unfold m2, mean_error_matching in I. destruct (Nat.eqb (length pr) 0); [destruct I|]. apply filter_In in I. destruct I as [_ E]. apply rltb_iff in E.
    destruct (cand (fst m) (snd m)) eqn:C; [|rewrite mean_not in E by auto; lra].
    rewrite mean_cand in E by auto. unfold cand in C. apply andb_true_iff in C. destruct C as [C U]. apply negb_true_iff in U.
    split; [now apply closest_near|]. split.
    - assert (P : 0 < INR n) by (apply lt_0_INR; lia). apply (Rmult_lt_compat_r (INR n)) in E; auto. unfold Rdiv in E. rewrite Rmult_assoc, Rinv_l in E; lra.
    - intros k K. assert (F : forall x, used m1 (fst m) (snd m) = true -> x) by (intros x X; congruence).
      split; intros X; apply F, used_iff; exists k; split; auto.
  Qed.
  Lemma avoids_cand M m : avoids M m1 -> In m M -> near_box d (box_at boxes (fst m)) (person_at pr (snd m)) -> cand (fst m) (snd m) = true.
  Proof.
    intros A I N. unfold cand. apply andb_true_iff. split; [now apply closest_near|]. apply negb_true_iff. destruct (used m1 _ _) eqn:U; auto.
    apply used_iff in U. destruct U as (k & K & [E|E]); destruct (A m k I K); congruence.
  Qed.
  Lemma stage2_best M : matching M (length gt) (length pr) -> avoids M m1 ->
    (forall m, In m M -> near_box d (box_at boxes (fst m)) (person_at pr (snd m))) ->
    sum_of (fun m => d * INR n - pair_error d (person_at gt (fst m)) (person_at pr (snd m))) M <=
    sum_of (fun m => d * INR n - pair_error d (person_at gt (fst m)) (person_at pr (snd m))) m2.
  Proof.
    intros HM HA HC.
    assert (P : 0 < INR n) by (apply lt_0_INR; lia).
    assert (V : forall K : list (nat * nat), (forall m, In m K -> (fst m < length gt)%nat /\ (snd m < length pr)%nat /\ cand (fst m) (snd m) = true) ->
      sum_of (fun m => d * INR n - pair_error d (person_at gt (fst m)) (person_at pr (snd m))) K =
      INR n * sum_of (fun m => d - mean_error gt pr n cand d (fst m) (snd m)) K).
    { intros K HK. rewrite <- sum_scale. apply sum_ext. intros m I. destruct (HK m I) as (A & B & C). rewrite mean_cand by auto. field. lra. }
    pose proof HM as (_ & _ & BM).
    rewrite (V M) by (intros m I; destruct (BM m I); repeat split; auto; apply (avoids_cand M); auto).
    pose proof stage2_matching as (_ & _ & B2).
    rewrite (V m2).
    2:{ intros m I. destruct (B2 m I). destruct (stage2_pair m I) as (X & _ & Y). repeat split; auto. apply (avoids_cand m2); auto.
        intros a b Ia Ib. destruct (stage2_pair a Ia) as (_ & _ & Z). now apply Z. }
    apply Rmult_le_compat_l; [lra|].
    unfold m2, mean_error_matching. destruct (Nat.eqb_spec (length pr) 0) as [E|E].
    - destruct M as [|m M]; [cbn; lra|]. destruct (BM m (or_introl eq_refl)). lia.
    - apply best_min; auto. intros i j. now apply mean_top.
  Qed.
End Stages.

Theorem match_stages assign d boxes gt pr n : solves assign -> 0 < d -> d <= 10000000000 -> (0 < n)%nat -> Forall sane_box boxes ->
  rectangular n gt -> rectangular n pr ->
  exists first second,
    matching_ids assign d boxes gt pr n = second ++ first /\
    (forall m, In m first -> first_allowed d gt pr m /\ 0 < inside_count (box_at boxes (fst m)) (person_at pr (snd m))) /\
    (forall M, matching M (length gt) (length pr) -> (forall m, In m M -> first_allowed d gt pr m) ->
       sum_of (fun m => inside_count (box_at boxes (fst m)) (person_at pr (snd m))) M <=
       sum_of (fun m => inside_count (box_at boxes (fst m)) (person_at pr (snd m))) first) /\
    avoids second first /\
    (forall m, In m second -> near_box d (box_at boxes (fst m)) (person_at pr (snd m)) /\
       pair_error d (person_at gt (fst m)) (person_at pr (snd m)) < d * INR n) /\
    (forall M, matching M (length gt) (length pr) -> avoids M first ->
       (forall m, In m M -> near_box d (box_at boxes (fst m)) (person_at pr (snd m))) ->
       sum_of (fun m => d * INR n - pair_error d (person_at gt (fst m)) (person_at pr (snd m))) M <=
       sum_of (fun m => d * INR n - pair_error d (person_at gt (fst m)) (person_at pr (snd m))) second).
Proof.
  intros HS D0 D1 HN HB RG RP. exists (stage1 assign d boxes gt pr).
  eexists. split; [reflexivity|]. repeat apply conj.
  - intros m. now apply stage1_pair.
  - intros M. now apply stage1_best.
  - intros a b Ia Ib. destruct (stage2_pair assign d boxes gt pr n HS D0 D1 HN HB RG RP a Ia) as (_ & _ & Z). now apply Z.
  - intros m I. destruct (stage2_pair assign d boxes gt pr n HS D0 D1 HN HB RG RP m I) as (X & Y & _). auto.
  - intros M. now apply stage2_best.
Qed.
Theorem match_one_to_one assign d boxes gt pr n : solves assign -> 0 < d -> d <= 10000000000 -> (0 < n)%nat -> Forall sane_box boxes ->
  rectangular n gt -> rectangular n pr -> matching (matching_ids assign d boxes gt pr n) (length gt) (length pr).
Proof.
  intros HS D0 D1 HN HB RG RP. apply matching_app.
  - now apply stage2_matching.
  - now apply stage1_matching.
  - intros a b Ia Ib. destruct (stage2_pair assign d boxes gt pr n HS D0 D1 HN HB RG RP a Ia) as (_ & _ & Z). now apply Z.
Qed.
Lemma near_shows d b o : near_box d b o -> shows o = true.
Proof. intros (k & I & V & _). apply existsb_exists. eauto. Qed.
Lemma inside_shows b o : 0 < inside_count b o -> shows o = true.
Proof.
  intros L. destruct (shows o) eqn:E; auto. exfalso. assert (inside_count b o = 0); [|lra]. apply sum_zero. intros k I. destruct (visible k) eqn:V; auto.
  assert (shows o = true) by (apply existsb_exists; eauto). congruence.
Qed.
Theorem match_shows assign d boxes gt pr n m : solves assign -> 0 < d -> d <= 10000000000 -> (0 < n)%nat -> Forall sane_box boxes ->
  rectangular n gt -> rectangular n pr -> In m (matching_ids assign d boxes gt pr n) -> shows (person_at pr (snd m)) = true.
Proof.
  intros HS D0 D1 HN HB RG RP I. destruct (match_stages assign d boxes gt pr n HS D0 D1 HN HB RG RP) as (f & s & E & F & _ & _ & G & _). rewrite E in I.
  apply in_app_iff in I. destruct I as [I|I].
  - destruct (G m I) as [X _]. eapply near_shows; eauto.
  - destruct (F m I) as [_ X]. eapply inside_shows; eauto.
Qed.
