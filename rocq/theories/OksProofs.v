(** Proofs about the similarity of one object. *)
From Coq Require Import Reals Lra Psatz List Arith Lia Bool ZArith.
From Verif Require Import Base ResultLib GeomModel GeomBase PoseModel PoseSpec PoseReorder PoseBox PoseMatch PoseStages OksModel OksSpec.
Import ListNotations.
Open Scope R_scope.

(** ** Size of a box *)
Lemma rpower_root r n : 0 < r -> (0 < n)%nat -> Rpower (r ^ n) (1 / INR n) = r.
Proof.
  intros H N. rewrite <- Rpower_pow by auto. rewrite Rpower_mult.
  assert (0 < INR n) by now apply lt_0_INR. replace (INR n * (1 / INR n)) with 1 by (field; lra). now apply Rpower_1.
Qed.
Lemma box_scale_size two_d b r : is_size two_d b r -> box_scale two_d b = r.
Proof.
  intros [P E]. unfold box_scale. cbv zeta. destruct two_d.
  - rewrite <- E. destruct (rleb (r * r) 0) eqn:L.
    + apply rleb_iff in L. nra.
    + apply rleb_false in L. assert (0 < r) by nra. replace (r * r) with (r ^ 2) by ring.
      replace 2 with (INR 2) by (cbn; ring). apply rpower_root; [auto | lia].
  - rewrite <- E. destruct (rleb (r * r * r) 0) eqn:L.
    + apply rleb_iff in L. destruct (Req_dec r 0) as [Z|Z]; [now rewrite Z|]. assert (0 < r) by lra.
      pose proof (Rmult_lt_0_compat _ _ H H). pose proof (Rmult_lt_0_compat _ _ H0 H). lra.
    + apply rleb_false in L. assert (0 < r). { destruct (Req_dec r 0) as [Z|Z]; [rewrite Z in L; lra | lra]. }
      replace (r * r * r) with (r ^ 3) by ring. replace 3 with (INR 3) by (cbn; ring). apply rpower_root; [auto | lia].
Qed.
Lemma size_exists two_d b : sane_box b -> exists r, is_size two_d b r.
Proof.
  intros (X & Y & Z). unfold is_size. destruct two_d.
  - exists (sqrt (sx b * sy b)). split; [apply sqrt_pos | apply sqrt_sqrt; nra].
  - set (v := sx b * sy b * sz b). assert (V : 0 <= v) by (unfold v; repeat apply Rmult_le_pos; auto).
    destruct (Req_dec v 0) as [E|E]; [exists 0; split; lra|].
    exists (Rpower v (/ 3)). assert (0 < Rpower v (/ 3)) by apply exp_pos. split; [lra|].
    replace (Rpower v (/ 3) * Rpower v (/ 3) * Rpower v (/ 3)) with (Rpower v (/ 3) ^ 3) by ring.
    rewrite <- Rpower_pow by auto. rewrite Rpower_mult. replace (/ 3 * INR 3) with 1 by (cbn; field). apply Rpower_1. lra.
Qed.

(** ** One point *)
Lemma per_point_closeness d t : oks_per_point d t = closeness t (vnorm d).
Proof.
  unfold oks_per_point, closeness, divide_no_nan.
  assert (N : vnorm d * vnorm d = vdot d d). { unfold vnorm, vdot. apply sqrt_sqrt. nra. }
  rewrite N. destruct (Req_EM_T t 0) as [->|T].
  - destruct (Req_EM_T (2 * 0 * 0) 0) as [_|C]; [apply exp_0 | lra].
  - destruct (Req_EM_T (2 * t * t) 0) as [C|_]; [nra|]. f_equal. field. auto.
Qed.
Lemma closeness_range t d : 0 < closeness t d <= 1.
Proof.
  unfold closeness. destruct (Req_EM_T t 0) as [_|T]; [lra|]. split; [apply exp_pos|].
  rewrite <- exp_0. destruct (Req_dec d 0) as [->|D]; [right; f_equal; field; nra|].
  left. apply exp_increasing. assert (0 < t * t) by nra. assert (0 < d * d) by nra.
  unfold Rdiv. assert (0 < / (2 * (t * t))) by (apply Rinv_0_lt_compat; lra). nra.
Qed.
Lemma closeness_one t d : t <> 0 -> closeness t d = 1 <-> d = 0.
Proof.
  intros T. unfold closeness. destruct (Req_EM_T t 0) as [E|_]; [contradiction|]. split.
  - intros E. rewrite <- exp_0 in E. apply exp_inv in E. assert (0 < t * t) by nra.
    assert (P : 0 < / (2 * (t * t))) by (apply Rinv_0_lt_compat; lra). unfold Rdiv in E.
    apply Rmult_integral in E. destruct E as [E|E]; [nra | lra].
  - intros ->. rewrite <- exp_0. f_equal. field. auto.
Qed.
Lemma closeness_mono t d e : 0 <= d <= e -> closeness t e <= closeness t d.
Proof.
  intros [D E]. unfold closeness. destruct (Req_EM_T t 0) as [_|T]; [lra|].
  assert (0 < t * t) by nra. assert (P : 0 < / (2 * (t * t))) by (apply Rinv_0_lt_compat; lra).
  assert (L : - (e * e) / (2 * (t * t)) <= - (d * d) / (2 * (t * t))). { unfold Rdiv. apply Rmult_le_compat_r; [lra | nra]. }
  destruct L as [L|L]; [left; now apply exp_increasing | right; now rewrite L].
Qed.
Lemma closeness_zoom c t d : c <> 0 -> closeness (c * t) (c * d) = closeness t d.
Proof.
  intros C. unfold closeness. destruct (Req_EM_T t 0) as [->|T].
  - destruct (Req_EM_T (c * 0) 0) as [_|N]; [reflexivity | lra].
  - destruct (Req_EM_T (c * t) 0) as [N|_]; [apply Rmult_integral in N; tauto|]. f_equal. field. auto.
Qed.

(** ** Weights *)
Lemma divide_mean a b : divide_no_nan a b = mean_of a b. Proof. reflexivity. Qed.
Lemma pair_mask_length s n : length (s_gt s) = n -> length (s_pr s) = n -> length (pair_mask s) = n.
Proof. intros A B. unfold pair_mask. rewrite map_length, combine_length, A, B. lia. Qed.
Lemma combine_repeat {A B} (l : list A) (x : B) : combine l (repeat x (length l)) = map (fun a => (a, x)) l.
Proof. induction l as [|a l IH]; auto. cbn [length repeat combine map]. now rewrite IH. Qed.
Lemma masked_ok n kind s : fits n kind s ->
  masked_weights kind (pair_mask s) (s_weight s) = Ok (map (fun mw => fst mw * snd mw) (combine (pair_mask s) (weight_row kind s))).
Proof.
  intros (G & P & _ & W). pose proof (pair_mask_length s n G P) as L. unfold masked_weights, weight_row.
  destruct kind.
  - rewrite G, <- L, combine_repeat, map_map. cbn [fst snd]. f_equal. rewrite <- (map_id (pair_mask s)) at 1.
    apply map_ext. intros m. lra.
  - destruct (s_weight s) as [|x [|y w]]; try discriminate W. cbn [hd]. rewrite G, <- L, combine_repeat, map_map. reflexivity.
  - destruct (s_weight s) as [|x [|y w]] eqn:E.
    + cbn [length] in W. rewrite L, <- W. reflexivity.
    + cbn [length] in W. destruct (pair_mask s) as [|m [|m' ms]]; cbn [length] in L; try lia. reflexivity.
    + rewrite <- W in L. rewrite L. rewrite Nat.eqb_refl. reflexivity.
Qed.
Lemma weight_row_length n kind s : fits n kind s -> length (weight_row kind s) = n.
Proof. intros (G & _ & _ & W). unfold weight_row. destruct kind; rewrite ?repeat_length; auto. Qed.
Lemma weight_row_nonneg n kind s : fits n kind s -> Forall (fun w => 0 <= w) (weight_row kind s).
Proof.
  intros (G & _ & F & W). unfold weight_row. destruct kind; auto.
  - apply Forall_forall. intros x I. apply repeat_spec in I. lra.
  - apply Forall_forall. intros x I. apply repeat_spec in I. subst x. destruct (s_weight s); cbn [hd]; [lra|]. now inversion F.
Qed.
Lemma mask_there k : mask k = if there k then 1 else 0. Proof. reflexivity. Qed.
Lemma both_mask g p w : mask g * mask p * w = if there g && there p then w else 0.
Proof. rewrite !mask_there. destruct (there g), (there p); cbn [andb]; lra. Qed.

(** The keypoints of four lists of one length. *)
Definition mk (x : keypoint * keypoint * R * R) : joint :=
  {| label := fst (fst (fst x)); prediction := snd (fst (fst x)); parameter := snd (fst x); weight := snd x |}.
Lemma weighted_sum (f : keypoint -> keypoint -> R -> R) gt : forall pr ks ws,
  length pr = length gt -> length ks = length gt -> length ws = length gt ->
  rsum (map (fun vw => fst vw * snd vw)
     (combine (map (fun gpk => f (fst (fst gpk)) (snd (fst gpk)) (snd gpk)) (combine (combine gt pr) ks))
              (map (fun mw => fst mw * snd mw) (combine (map (fun gp => mask (fst gp) * mask (snd gp)) (combine gt pr)) ws)))) =
  total_of (fun j => f (label j) (prediction j) (parameter j)) (map mk (combine (combine (combine gt pr) ks) ws)).
Proof.
  induction gt as [|g gt IH]; intros [|p pr] [|k ks] [|w ws] P K W; cbn [length] in *; try lia; [reflexivity|].
  cbn [combine map]. unfold total_of. rewrite sum_cons. unfold rsum. cbn [fold_right]. f_equal.
  - cbn [fst snd mk label prediction parameter weight]. unfold both. cbn [mk label prediction fst snd].
    rewrite both_mask. destruct (there g && there p); lra.
  - apply IH; lia.
Qed.
Lemma weight_sum gt : forall pr ks ws,
  length pr = length gt -> length ks = length gt -> length ws = length gt ->
  rsum (map (fun mw => fst mw * snd mw) (combine (map (fun gp => mask (fst gp) * mask (snd gp)) (combine gt pr)) ws)) =
  total_weight (map mk (combine (combine (combine gt pr) ks) ws)).
Proof.
  induction gt as [|g gt IH]; intros [|p pr] [|k ks] [|w ws] P K W; cbn [length] in *; try lia; [reflexivity|].
  cbn [combine map]. unfold total_weight. rewrite sum_cons. unfold rsum. cbn [fold_right]. f_equal.
  - cbn [fst snd]. unfold both. cbn [mk label prediction fst snd weight]. apply both_mask.
  - apply IH; lia.
Qed.
Lemma score_sum (f : keypoint -> keypoint -> R -> R) gt : forall pr ks ws,
  length pr = length gt -> length ks = length gt -> length ws = length gt ->
  rsum (map (fun gpk => f (fst (fst gpk)) (snd (fst gpk)) (snd gpk)) (combine (combine gt pr) ks)) =
  sum_of (fun j => f (label j) (prediction j) (parameter j)) (map mk (combine (combine (combine gt pr) ks) ws)).
Proof.
  induction gt as [|g gt IH]; intros [|p pr] [|k ks] [|w ws] P K W; cbn [length] in *; try lia; [reflexivity|].
  cbn [combine map]. rewrite sum_cons. unfold rsum. cbn [fold_right]. f_equal. apply IH; lia.
Qed.
Lemma joints_length n kind ks s : fits n kind s -> length ks = n -> length (joints kind ks s) = n.
Proof.
  intros F K. pose proof (weight_row_length n kind s F). destruct F as (G & P & _).
  unfold joints. rewrite map_length, !combine_length. lia.
Qed.
Lemma available_labelled s : gt_available s = labelled s.
Proof.
  unfold gt_available, labelled. destruct (existsb there (s_gt s)) eqn:E.
  - apply existsb_exists in E. destruct E as (k & I & T). apply rltb_iff. apply in_split in I. destruct I as (a & b & ->).
    rewrite rsum_map. rewrite sum_app, sum_cons.
    assert (0 <= sum_of mask a) by (apply sum_nonneg; intros x _; rewrite mask_there; destruct (there x); lra).
    assert (0 <= sum_of mask b) by (apply sum_nonneg; intros x _; rewrite mask_there; destruct (there x); lra).
    rewrite mask_there, T. lra.
  - apply rltb_false. rewrite rsum_map. rewrite sum_zero; [lra|]. intros k I. rewrite mask_there.
    destruct (there k) eqn:T; auto. assert (existsb there (s_gt s) = true) by (apply existsb_exists; eauto). congruence.
Qed.
Lemma diff_gap g p : vnorm (vsub (location g) (location p)) = dist3 (place g) (place p).
Proof. reflexivity. Qed.
Lemma enlarged_eq b : no_penalty_box b = enlarged b. Proof. reflexivity. Qed.
Lemma enlarged_sane b : sane_box b -> sane_box (enlarged b).
Proof. intros (X & Y & Z). unfold sane_box, enlarged. cbn [sx sy sz]. lra. Qed.

Theorem oks_value two_d n scales kind s r : fits n kind s -> length scales = n -> sane_box (s_box s) -> is_size two_d (s_box s) r ->
  object_keypoint_similarity two_d scales kind s = Ok (similarity r kind scales s).
Proof.
  intros F K B S. pose proof (masked_ok n kind s F) as M. pose proof (weight_row_length n kind s F) as WL.
  pose proof (joints_length n kind scales s F K) as JL. pose proof F as (G & P & _).
  unfold object_keypoint_similarity. rewrite G, P, K, Nat.eqb_refl. cbn [negb andb]. rewrite M. cbn [bind]. f_equal.
  unfold similarity. cbv zeta. rewrite available_labelled. unfold per_point_scores, point_diff. rewrite available_labelled.
  rewrite (box_scale_size _ _ _ S). unfold mean. rewrite !divide_mean. destruct (labelled s) eqn:L.
  - rewrite (weighted_sum (fun g p k => oks_per_point (vsub (location g) (location p)) (k * r))) by (rewrite ?G; auto).
    unfold pair_mask. rewrite (weight_sum (s_gt s) (s_pr s) scales) by (rewrite ?G; auto).
    change (map mk ?l) with (joints kind scales s). f_equal. unfold total_of. apply sum_ext. intros j _.
    destruct (both j); auto. rewrite per_point_closeness. reflexivity.
  - rewrite (score_sum (fun g p k => oks_per_point (box_displacement (location p) (no_penalty_box (s_box s))) (k * r)) _ _ _ (weight_row kind s))
      by (rewrite ?G; auto).
    change (map mk ?l) with (joints kind scales s). rewrite JL. apply (f_equal (fun x => mean_of x (INR n))). apply sum_ext. intros j _.
    rewrite per_point_closeness, enlarged_eq, displacement_distance by now apply enlarged_sane. reflexivity.
Qed.
