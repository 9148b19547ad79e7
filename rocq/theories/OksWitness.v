(** Cases in which the scores are not what one expects. *)
From Coq Require Import Reals Lra Psatz List Arith Lia Bool ZArith.
From Verif Require Import Base ResultLib GeomModel GeomBase PoseModel PoseSpec PoseReorder PoseBox PoseMatch PoseStages OksModel OksSpec OksProofs OksScores OksMeans OksPrecision.
Import ListNotations.
Open Scope R_scope.

Ltac all_of := repeat match goal with |- Forall _ (_ :: _) => apply Forall_cons | |- Forall _ [] => apply Forall_nil end.

Definition at_x (x : R) (v : Z) : keypoint := {| px := x; py := 0; pz := 0; visibility := v |}.
Definition at_y (y : R) (v : Z) : keypoint := {| px := 0; py := y; pz := 0; visibility := v |}.
Definition box_of (a b c h : R) : box3 := {| cx := 0; cy := 0; cz := 0; sx := a; sy := b; sz := c; heading := h |}.
Definition unit_box : box3 := box_of 1 1 1 0.
Definition case (gt pr : list keypoint) (b : box3) : sample := {| s_gt := gt; s_pr := pr; s_box := b; s_weight := [] |}.

Lemma unit_size : is_size false unit_box 1. Proof. unfold is_size. cbn. lra. Qed.
Lemma unit_sane : sane_box unit_box. Proof. unfold sane_box. cbn. lra. Qed.
Lemma case_fits gt pr b n : length gt = n -> length pr = n -> fits n Unweighted (case gt pr b).
Proof. intros G P. unfold fits. cbn [case s_gt s_pr s_weight]. auto. Qed.

(** ** One keypoint right, the others missing *)
Definition half_missing : sample := case [at_x 0 2; at_x 1 2] [at_x 0 2; at_x 0 0] unit_box.
Lemma half_missing_score : object_keypoint_similarity false [1; 1] Unweighted half_missing = Ok 1.
Proof.
  rewrite (oks_value false 2 [1; 1] Unweighted half_missing 1); [|now apply case_fits | reflexivity | exact unit_sane | exact unit_size].
  f_equal. apply similarity_perfect; [reflexivity | | lra | |].
  - repeat constructor; lra.
  - repeat constructor; lra.
  - split; [eexists; split; [left; reflexivity | reflexivity]|]. intros j [<-|[<-|[]]] B; [reflexivity | discriminate B].
Qed.
(** ** A flat box *)
Definition flat : sample := case [at_x 0 2] [at_x 1000 2] (box_of 1 1 0 0).
Lemma flat_score : object_keypoint_similarity false [1] Unweighted flat = Ok 1.
Proof.
  rewrite (oks_value false 1 [1] Unweighted flat 0); [|now apply case_fits | reflexivity | unfold sane_box; cbn; lra | unfold is_size; cbn; lra].
  f_equal. unfold similarity. cbv zeta. change (labelled flat) with true. cbv iota. apply mean_one.
  unfold joints, flat, total_of, total_weight, sum_of. cbn [case weight_row s_gt s_pr length repeat combine map fold_right fst snd].
  unfold both, there. cbn [label prediction weight parameter visibility at_x Z.ltb Z.compare andb].
  unfold closeness. destruct (Req_EM_T (1 * 0) 0) as [_|N]; [lra | exfalso; lra].
Qed.
Lemma flat_counts : counts false (s_box flat) = 1.
Proof.
  unfold counts. cbn [flat case s_box box_of sx sy sz]. destruct (Rlt_dec _ _) as [_|N]; auto. exfalso. apply N.
  pose proof (Rmax_l (Rmax 1 1) 0). pose proof (Rmax_l 1 1). lra.
Qed.
(** ** A turned box *)
Definition turned : sample := case [at_x 0 0] [at_y 10 2] (box_of 10 1 1 (PI / 2)).
Lemma turned_inside : in_box (enlarged_turned (s_box turned)) (0, 10, 0) /\ in_box_clockwise (enlarged_turned (s_box turned)) (0, 10, 0).
Proof.
  unfold in_box, in_box_clockwise. cbv zeta. unfold turned, enlarged_turned. cbn [case s_box box_of cx cy cz sx sy sz heading fst snd].
  rewrite cos_PI2, sin_PI2.
  replace (0 * (0 - 0) + 1 * (10 - 0)) with 10 by ring. replace (- (1) * (0 - 0) + 0 * (10 - 0)) with 0 by ring.
  replace (0 * (0 - 0) - 1 * (10 - 0)) with (- 10) by ring. replace (1 * (0 - 0) + 0 * (10 - 0)) with 0 by ring.
  rewrite Rminus_0_r, Rabs_R0, (Rabs_left (-10)), (Rabs_right 10) by lra. lra.
Qed.
Lemma turned_score : exists v, object_keypoint_similarity false [1] Unweighted turned = Ok v /\ v <> 1.
Proof.
  assert (S : sane_box (s_box turned)) by (unfold sane_box; cbn; lra).
  destruct (size_exists false (s_box turned) S) as (r & Z). exists (similarity r Unweighted [1] turned). split.
  - apply (oks_value false 1); auto. now apply case_fits.
  - assert (F : fits 1 Unweighted turned) by now apply case_fits.
    assert (R : 0 < r). { destruct Z as [P E]. cbn [turned case s_box box_of sx sy sz] in E. destruct (Req_dec r 0) as [->|]; lra. }
    intros E. apply (similarity_surrogate 1) in E; auto; [|repeat constructor; lra].
    inversion E as [|? ? I _]; subst. destruct I as (_ & Y & _). cbn [place at_y px py pz fst snd turned case s_box box_of cy sy] in Y.
    rewrite Rminus_0_r, Rabs_right in Y by lra. lra.
Qed.
(** ** No labels and no predictions *)
Definition nothing : sample := case [at_x 0 0] [at_x 0 0] unit_box.
Lemma nothing_scores : object_keypoint_similarity false [1] Unweighted nothing = Ok 1 /\
  exists v, object_keypoint_similarity false [1] Unweighted (predict nothing [at_x 100 0]) = Ok v /\ v <> 1.
Proof.
  assert (F : fits 1 Unweighted nothing) by now apply case_fits.
  assert (F' : fits 1 Unweighted (predict nothing [at_x 100 0])) by (unfold fits; cbn; auto).
  split.
  - rewrite (oks_value false 1 [1] Unweighted nothing 1); auto; [|exact unit_sane | exact unit_size]. f_equal.
    apply (similarity_surrogate 1); auto; [exact unit_sane | repeat constructor; lra | lra|].
    repeat constructor; cbn [place at_x px py pz fst snd nothing case s_box unit_box box_of cx cy cz sx sy sz]; rewrite Rminus_0_r, Rabs_R0; lra.
  - eexists. split; [apply (oks_value false 1) with (r := 1); auto; [exact unit_sane | exact unit_size]|].
    intros E. apply (similarity_surrogate 1) in E; auto; [|exact unit_sane | repeat constructor; lra | lra].
    inversion E as [|? ? I _]; subst. destruct I as (X & _). cbn [place at_x px py pz fst snd predict nothing case s_box unit_box box_of cx sx] in X.
    rewrite Rminus_0_r, Rabs_right in X by lra. lra.
Qed.

(** ** Batches *)
Definition found : sample := case [at_x 0 2] [at_x 0 2] unit_box.
Definition lost : sample := case [at_x 0 2] [at_x 0 0] unit_box.
Definition size_one (b : box3) : R := 1.
Definition sim1 (s : sample) : R := similarity (size_one (s_box s)) Unweighted [1] s.
Lemma found_sim : sim1 found = 1.
Proof.
  apply similarity_perfect; [reflexivity | repeat constructor; lra | unfold size_one; lra | repeat constructor; lra|].
  split; [eexists; split; [left; reflexivity | reflexivity]|]. intros j [<-|[]] _. reflexivity.
Qed.
Lemma lost_sim : sim1 lost = 0.
Proof.
  unfold sim1, similarity. cbv zeta. change (labelled lost) with true. cbv iota. unfold mean_of. destruct (Req_EM_T _ 0) as [_|N]; auto. exfalso. apply N.
  unfold total_weight. apply sum_zero. intros j [<-|[]]. reflexivity.
Qed.
Lemma unit_counts : counts false unit_box = 1.
Proof.
  unfold counts. cbn [unit_box box_of sx sy sz]. destruct (Rlt_dec _ _) as [_|N]; auto. exfalso. apply N.
  pose proof (Rmax_l (Rmax 1 1) 1). pose proof (Rmax_l 1 1). lra.
Qed.
Lemma found_proper : proper false 1 Unweighted size_one found.
Proof. split; [now apply case_fits|]. split; [exact unit_sane | exact unit_size]. Qed.
Lemma lost_proper : proper false 1 Unweighted size_one lost.
Proof. split; [now apply case_fits|]. split; [exact unit_sane | exact unit_size]. Qed.
Lemma hit_found : hit sim1 (/ 2) found = 1. Proof. unfold hit. rewrite found_sim. destruct (Rlt_dec _ _); lra. Qed.
Lemma hit_lost : hit sim1 (/ 2) lost = 0. Proof. unfold hit. rewrite lost_sim. destruct (Rlt_dec _ _); lra. Qed.
Lemma mean_nz a b : b <> 0 -> mean_of a b = a / b.
Proof. intros B. unfold mean_of. destruct (Req_EM_T b 0); [contradiction | reflexivity]. Qed.
Lemma precision_values :
  precision false sim1 (/ 2) [found] = 1 /\ precision false sim1 (/ 2) [lost; lost] = 0 /\ precision false sim1 (/ 2) [found; lost; lost] = / 3.
Proof.
  unfold precision, share, sum_of. cbn [fold_right]. rewrite !hit_found, !hit_lost.
  change (s_box found) with unit_box. change (s_box lost) with unit_box. rewrite unit_counts.
  rewrite !mean_nz by lra. repeat split; field.
Qed.
Lemma split_average : exists st,
  foldM (ap_update false [1] [/ 2] Unweighted) [[found]; [lost; lost]] (ap_zero [/ 2]) = Ok st /\ ap_result [/ 2] st = ([(/ 2, / 3)], / 2).
Proof.
  destruct (precision_value false 1 [1] [/ 2] size_one [[found]; [lost; lost]] eq_refl) as (st & E & V).
  - all_of; exact found_proper || exact lost_proper.
  - exists st. split; auto. rewrite V. destruct precision_values as (A & B & C). cbn [map concat app].
    change (sim [1] size_one Unweighted) with sim1. rewrite C. f_equal. unfold sum_of. cbn [fold_right length INR]. rewrite A, B.
    rewrite mean_nz by lra. field.
Qed.
(** With weights. *)
Definition heavy (w : R) (s : sample) : sample := {| s_gt := s_gt s; s_pr := s_pr s; s_box := s_box s; s_weight := [w] |}.
Definition simw (s : sample) : R := similarity (size_one (s_box s)) PerPoint [1] s.
Lemma heavy_proper w s : 0 <= w -> proper false 1 Unweighted size_one s -> proper false 1 PerPoint size_one (heavy w s).
Proof. intros W ((G & P & _) & B & Z). split; [|split; auto]. unfold fits. cbn [heavy s_gt s_pr s_weight length]. auto. Qed.
Lemma heavy_found : simw (heavy 1 found) = 1.
Proof.
  apply similarity_perfect; [reflexivity | repeat constructor; lra | unfold size_one; lra | repeat constructor; lra|].
  split; [eexists; split; [left; reflexivity | reflexivity]|]. intros j [<-|[]] _. reflexivity.
Qed.
Lemma heavy_lost : simw (heavy 3 lost) = 0.
Proof.
  unfold simw, similarity. cbv zeta. change (labelled (heavy 3 lost)) with true. cbv iota. unfold mean_of. destruct (Req_EM_T _ 0) as [_|N]; auto. exfalso. apply N.
  unfold total_weight. apply sum_zero. intros j [<-|[]]. reflexivity.
Qed.
Lemma weighted_split :
  (exists st, foldM (ap_update false [1] [/ 2] PerPoint) [[heavy 1 found; heavy 3 lost]] (ap_zero [/ 2]) = Ok st /\ fst (ap_result [/ 2] st) = [(/ 2, / 4)]) /\
  (exists st, foldM (ap_update false [1] [/ 2] PerPoint) [[heavy 1 found]; [heavy 3 lost]] (ap_zero [/ 2]) = Ok st /\ fst (ap_result [/ 2] st) = [(/ 2, / 2)]).
Proof.
  assert (P1 : proper false 1 PerPoint size_one (heavy 1 found)) by (apply heavy_proper; [lra | exact found_proper]).
  assert (P2 : proper false 1 PerPoint size_one (heavy 3 lost)) by (apply heavy_proper; [lra | exact lost_proper]).
  assert (H1 : hit simw (/ 2) (heavy 1 found) = 1) by (unfold hit; rewrite heavy_found; destruct (Rlt_dec _ _); lra).
  assert (H2 : hit simw (/ 2) (heavy 3 lost) = 0) by (unfold hit; rewrite heavy_lost; destruct (Rlt_dec _ _); lra).
  split.
  - destruct (weighted_value false 1 [1] [/ 2] size_one [heavy 1 found; heavy 3 lost] eq_refl) as (st & E & V); [all_of; assumption|].
    exists st. split; auto. rewrite V. cbn [map]. unfold share, sum_of. change (sim [1] size_one PerPoint) with simw. cbn [fold_right]. rewrite H1, H2.
    change (s_box (heavy 1 found)) with unit_box. change (s_box (heavy 3 lost)) with unit_box. rewrite unit_counts. cbn [heavy s_weight fold_right].
    rewrite mean_nz by lra. f_equal. f_equal. field.
  - destruct (ap_value false 1 [1] [/ 2] size_one PerPoint eq_refl [[heavy 1 found]; [heavy 3 lost]]) as (st & E & V);
      [discriminate | all_of; assumption|].
    exists st. split; auto. rewrite V. cbn [fst map]. unfold hits, tried, importance, sum_of. change (sim [1] size_one PerPoint) with simw. cbn [fold_right].
    rewrite H1, H2. change (s_box (heavy 1 found)) with unit_box. change (s_box (heavy 3 lost)) with unit_box. rewrite unit_counts. cbn [heavy s_weight fold_right].
    rewrite (mean_nz (1 + 0)) by lra. rewrite (mean_nz (3 + 0)) by lra. rewrite mean_nz by (replace ((1 + 0) / (1 + 0 + 0) * 1) with 1 by field; replace ((3 + 0) / (3 + 0 + 0) * 1) with 1 by field; lra).
    f_equal. f_equal. field.
Qed.

(** ** In the form of the properties *)
Lemma units c two_d n scales kind s v : 0 < c -> fits n kind s -> length scales = n -> sane_box (s_box s) ->
  object_keypoint_similarity two_d scales kind s = Ok v -> object_keypoint_similarity two_d scales kind (zoom c s) = Ok v.
Proof.
  intros C F K B E. destruct (size_exists two_d (s_box s) B) as (r & Z). rewrite (oks_value two_d n scales kind s r) in E by auto.
  rewrite (oks_value two_d n scales kind (zoom c s) (c * r)); auto.
  - now rewrite similarity_zoom.
  - now apply zoom_fits.
  - destruct B as (X & Y & W). unfold sane_box, zoom, zoom_box. cbn [s_box sx sy sz]. repeat split; nra.
  - now apply zoom_size.
Qed.
Lemma missing_counts : exists s,
  Forall (fun g => there g = true) (s_gt s) /\ (exists p, In p (s_pr s) /\ there p = false) /\
  object_keypoint_similarity false [1; 1] Unweighted s = Ok 1.
Proof.
  exists half_missing. split; [repeat constructor|]. split; [|exact half_missing_score].
  exists (at_x 0 0). split; [right; left; reflexivity | reflexivity].
Qed.
Lemma flat_box : exists s,
  counts false (s_box s) = 1 /\ (forall j, In j (joints Unweighted [1] s) -> both j = true /\ gap j = 1000) /\
  object_keypoint_similarity false [1] Unweighted s = Ok 1.
Proof.
  exists flat. split; [exact flat_counts|]. split; [|exact flat_score]. intros j [<-|[]]. split; [reflexivity|].
  unfold gap, dist3, place. cbn [label prediction at_x px py pz fst snd].
  replace ((0 - 1000) * (0 - 1000) + (0 - 0) * (0 - 0) + (0 - 0) * (0 - 0)) with (1000 * 1000) by ring. apply sqrt_square. lra.
Qed.
Lemma turned_box : exists s v,
  labelled s = false /\
  (forall p, In p (s_pr s) -> in_box (enlarged_turned (s_box s)) (place p) /\ in_box_clockwise (enlarged_turned (s_box s)) (place p)) /\
  object_keypoint_similarity false [1] Unweighted s = Ok v /\ v <> 1.
Proof.
  destruct turned_score as (v & E & N). exists turned, v. split; [reflexivity|]. split; [|auto].
  intros p [<-|[]]. exact turned_inside.
Qed.
Lemma unlabelled_missing : exists s pr v w,
  labelled s = false /\ Forall (fun p => there p = false) (s_pr s) /\ Forall (fun p => there p = false) pr /\
  object_keypoint_similarity false [1] Unweighted s = Ok v /\
  object_keypoint_similarity false [1] Unweighted (predict s pr) = Ok w /\ v <> w.
Proof.
  destruct nothing_scores as (E & w & E' & N). exists nothing, [at_x 100 0], 1, w.
  split; [reflexivity|]. split; [repeat constructor|]. split; [repeat constructor|]. auto.
Qed.
Lemma proper_good two_d n kind size l : Forall (proper two_d n kind size) l -> Forall (good two_d n size kind) l.
Proof. apply Forall_impl. intros s (A & _ & B). split; auto. Qed.
Lemma correct_keypoints two_d n c has_box size kind t batches :
  sane_config n c -> (use_object_scale c = true -> has_box = true) -> Forall (Forall (proper two_d n kind size)) batches ->
  exists st, foldM (pck_update two_d c has_box kind t) batches mean_zero = Ok st /\
    mean_result st = correct_share kind c size t (concat batches).
Proof. intros S H F. apply pck_value with n; auto. revert F. apply Forall_impl. apply proper_good. Qed.
Lemma correct_range n kind c size t t' l :
  sane_config n c -> Forall (fits n kind) l -> Forall (fun s => 0 <= size (s_box s)) l -> t <= t' ->
  0 <= correct_share kind c size t l <= correct_share kind c size t' l /\ correct_share kind c size t' l <= 1.
Proof.
  intros S F Z T. pose proof (pck_range n kind c size t l F). pose proof (pck_range n kind c size t' l F).
  pose proof (pck_mono n kind c size t t' l S F Z T). unfold pck_of, correct_share in *. lra.
Qed.
Lemma order kind c size t l m : Permutation.Permutation l m ->
  mean_gap kind l = mean_gap kind m /\ correct_share kind c size t l = correct_share kind c size t m.
Proof.
  intros P. unfold mean_gap, correct_share, total_of, total_weight. cbv zeta.
  split; f_equal; now apply joints_perm.
Qed.
Lemma no_box two_d c kind t st s batch : use_object_scale c = true -> exists e, pck_update two_d c false kind t st (s :: batch) = Err e.
Proof.
  intros U. unfold pck_update. destruct (mapM check_shapes (s :: batch)) as [x|e]; cbn [bind]; [|eauto].
  cbn [mapM]. unfold is_correct at 1, keypoint_threshold at 1. cbv zeta. rewrite U. cbn [bind]. eauto.
Qed.
Lemma precision_bounds two_d f t t' l :
  t <= t' -> 0 <= precision two_d f t' l <= precision two_d f t l /\ precision two_d f t l <= 1.
Proof.
  intros T. pose proof (precision_range two_d f t l). pose proof (precision_range two_d f t' l). pose proof (precision_antitone two_d f t t' l T). lra.
Qed.
Lemma one_batch two_d f ts b :
  mean_of (sum_of (fun b => sum_of (fun t => precision two_d f t b) ts) [b]) (INR (length [b]) * INR (length ts)) =
  mean_over ts (fun t => precision two_d f t b).
Proof. rewrite average_single. cbn [concat]. now rewrite app_nil_r. Qed.
Lemma average_split : exists batches st st',
  Forall (Forall (proper false 1 Unweighted (fun _ => 1))) batches /\
  foldM (ap_update false [1] [/ 2] Unweighted) batches (ap_zero [/ 2]) = Ok st /\ ap_result [/ 2] st = ([(/ 2, / 3)], / 2) /\
  foldM (ap_update false [1] [/ 2] Unweighted) [concat batches] (ap_zero [/ 2]) = Ok st' /\ ap_result [/ 2] st' = ([(/ 2, / 3)], / 3).
Proof.
  exists [[found]; [lost; lost]]. destruct split_average as (st & E & V).
  destruct (precision_value false 1 [1] [/ 2] size_one [[found; lost; lost]] eq_refl) as (st' & E' & V').
  - all_of; exact found_proper || exact lost_proper.
  - exists st, st'. split; [all_of; exact found_proper || exact lost_proper|]. split; [exact E|]. split; [exact V|]. split; [exact E'|].
    rewrite V'. destruct precision_values as (A & B & C). cbn [map concat app].
    change (sim [1] size_one Unweighted) with sim1. rewrite C. f_equal. unfold sum_of. cbn [fold_right length INR]. rewrite C.
    rewrite mean_nz by lra. field.
Qed.
Lemma weighted_batches : exists a b,
  Forall (proper false 1 PerPoint (fun _ => 1)) [a; b] /\
  (exists st, foldM (ap_update false [1] [/ 2] PerPoint) [[a; b]] (ap_zero [/ 2]) = Ok st /\ fst (ap_result [/ 2] st) = [(/ 2, / 4)]) /\
  (exists st, foldM (ap_update false [1] [/ 2] PerPoint) [[a]; [b]] (ap_zero [/ 2]) = Ok st /\ fst (ap_result [/ 2] st) = [(/ 2, / 2)]).
Proof.
  exists (heavy 1 found), (heavy 3 lost). split; [|exact weighted_split].
  all_of; apply heavy_proper; try lra; exact found_proper || exact lost_proper.
Qed.
Lemma object_weights_refused two_d n scales thresholds size c has_box t st batch :
  (exists e, ap_update two_d scales thresholds PerObject st batch = Err e) /\
  (forall m, Forall (proper two_d n PerObject size) batch -> sane_config n c -> (use_object_scale c = true -> has_box = true) ->
     (exists m', mpjpe_update PerObject m batch = Ok m') /\ (exists m', pck_update two_d c has_box PerObject t m batch = Ok m')).
Proof.
  split; [apply per_object_refused|]. intros m F S H. pose proof (proper_good _ _ _ _ _ F) as G. split.
  - eexists. apply mpjpe_step with n. eapply good_fits; eauto.
  - eexists. apply (pck_step two_d n c has_box size PerObject S H t m batch G).
Qed.
Lemma two_points : let s := {| s_gt := [at_x 0 2; at_x 1 1]; s_pr := [at_x 0 2; at_x 2 2]; s_box := unit_box; s_weight := [1; 3] |} in
  fits 2 PerPoint s /\ sane_box (s_box s) /\ is_size false (s_box s) 1 /\ labelled s = true /\
  similarity 1 PerPoint [1; 1] s = (1 + 3 * exp (- (1) / 2)) / 4.
Proof.
  intros s. split; [|split; [exact unit_sane | split; [exact unit_size | split; [reflexivity|]]]].
  - unfold fits. cbn [s s_gt s_pr s_weight length]. repeat split; auto. repeat constructor; lra.
  - unfold similarity. cbv zeta. change (labelled s) with true. cbv iota.
    set (j1 := {| label := at_x 0 2; prediction := at_x 0 2; parameter := 1; weight := 1 |}).
    set (j2 := {| label := at_x 1 1; prediction := at_x 2 2; parameter := 1; weight := 3 |}).
    change (joints PerPoint [1; 1] s) with [j1; j2]. unfold total_of, total_weight, sum_of. cbn [fold_right].
    change (both j1) with true. change (both j2) with true. cbv iota.
    assert (G1 : gap j1 = 0) by now apply gap_zero. assert (G2 : gap j2 = 1).
    { unfold gap, dist3, place. cbn [j2 label prediction at_x px py pz fst snd].
      replace ((1 - 2) * (1 - 2) + (0 - 0) * (0 - 0) + (0 - 0) * (0 - 0)) with 1 by ring. apply sqrt_1. }
    rewrite G1, G2. change (parameter j1) with 1. change (parameter j2) with 1. change (weight j1) with 1. change (weight j2) with 3.
    rewrite (proj2 (closeness_one (1 * 1) 0 ltac:(lra)) eq_refl). unfold closeness. destruct (Req_EM_T (1 * 1) 0) as [N|_]; [exfalso; lra|].
    replace (- (1 * 1) / (2 * (1 * 1 * (1 * 1)))) with (- (1) / 2) by field. rewrite mean_nz by lra. field.
Qed.
Lemma pck_case : Forall (Forall (proper false 1 Unweighted (fun _ => 1))) [[found]; [lost; lost]] /\
  sane_config 1 {| per_type := Some [2]; use_object_scale := true |} /\
  correct_share Unweighted {| per_type := Some [2]; use_object_scale := true |} (fun _ => 1) (/ 4) [found; lost] = 1.
Proof.
  split; [all_of; exact found_proper || exact lost_proper|]. split; [split; [reflexivity | repeat constructor; lra]|].
  unfold correct_share. cbv zeta.
  set (j1 := {| label := at_x 0 2; prediction := at_x 0 2; parameter := / 4 * 1 * 2; weight := 1 |}).
  set (j2 := {| label := at_x 0 2; prediction := at_x 0 0; parameter := / 4 * 1 * 2; weight := 1 |}).
  change (all_joints _ _ _) with [j1; j2]. unfold total_of, total_weight, sum_of. cbn [fold_right].
  change (both j1) with true. change (both j2) with false. cbv iota. unfold within. assert (G1 : gap j1 = 0) by now apply gap_zero. rewrite G1.
  change (parameter j1) with (/ 4 * 1 * 2). change (weight j1) with 1. destruct (Rle_dec 0 (/ 4 * 1 * 2)) as [_|N]; [|exfalso; lra].
  rewrite mean_nz by lra. field.
Qed.
