(** Consequences of the value of the similarity. *)
From Coq Require Import Reals Lra Psatz List Arith Lia Bool ZArith.
From Verif Require Import Base ResultLib GeomModel GeomBase PoseModel PoseSpec PoseReorder PoseBox PoseMatch PoseStages PosePem OksModel OksSpec OksProofs.
Import ListNotations.
Open Scope R_scope.

Lemma gap_nonneg j : 0 <= gap j. Proof. apply sqrt_pos. Qed.
Lemma gap_zero j : gap j = 0 <-> place (label j) = place (prediction j).
Proof. apply dist3_zero. Qed.
Lemma sqrt_sum_zero a b c : sqrt (a * a + b * b + c * c) = 0 -> a = 0 /\ b = 0 /\ c = 0.
Proof.
  intros E. pose proof (Rle_0_sqr a) as A. pose proof (Rle_0_sqr b) as B. pose proof (Rle_0_sqr c) as C. unfold Rsqr in *.
  assert (P : 0 <= a * a + b * b + c * c) by lra. apply sqrt_eq_0 in E; [|exact P].
  now apply squares_zero.
Qed.
Lemma in_joints kind ks s j : In j (joints kind ks s) ->
  In (label j) (s_gt s) /\ In (prediction j) (s_pr s) /\ In (parameter j) ks /\ In (weight j) (weight_row kind s).
Proof.
  unfold joints. intros I. apply in_map_iff in I. destruct I as ([[[g p] k] w] & <- & I). cbn [label prediction parameter weight fst snd].
  pose proof (in_combine_l _ _ _ _ I) as A. pose proof (in_combine_r _ _ _ _ I). pose proof (in_combine_l _ _ _ _ A) as B.
  pose proof (in_combine_r _ _ _ _ A). pose proof (in_combine_l _ _ _ _ B). pose proof (in_combine_r _ _ _ _ B). auto.
Qed.
Definition weighty (js : list joint) : Prop := forall j, In j js -> 0 <= weight j.
Lemma joints_weighty n kind ks s : fits n kind s -> weighty (joints kind ks s).
Proof.
  intros F j I. apply in_joints in I. destruct I as (_ & _ & _ & W). pose proof (weight_row_nonneg n kind s F) as A.
  rewrite Forall_forall in A. auto.
Qed.
Lemma total_range f js : weighty js -> (forall j, In j js -> 0 <= f j <= 1) -> 0 <= total_of f js <= total_weight js.
Proof.
  intros W F. unfold total_of, total_weight. split.
  - apply sum_nonneg. intros j I. specialize (W j I). specialize (F j I). destruct (both j); nra.
  - apply sum_le. intros j I. specialize (W j I). specialize (F j I). destruct (both j); nra.
Qed.
Lemma mean_range a b : 0 <= a <= b -> 0 <= mean_of a b <= 1.
Proof.
  intros H. unfold mean_of. destruct (Req_EM_T b 0) as [_|N]; [lra|]. assert (0 < / b) by (apply Rinv_0_lt_compat; lra).
  unfold Rdiv. split; [nra|]. replace 1 with (b * / b) by (field; lra). apply Rmult_le_compat_r; lra.
Qed.
Lemma mean_le a a' b : a <= a' -> 0 <= b -> mean_of a b <= mean_of a' b.
Proof.
  intros H B. unfold mean_of. destruct (Req_EM_T b 0) as [_|N]; [lra|]. assert (0 < / b) by (apply Rinv_0_lt_compat; lra).
  unfold Rdiv. apply Rmult_le_compat_r; lra.
Qed.
Lemma mean_one a b : mean_of a b = 1 <-> a = b /\ b <> 0.
Proof.
  unfold mean_of. destruct (Req_EM_T b 0) as [E|N]; [split; [lra | tauto]|]. split.
  - intros H. split; auto. apply (f_equal (fun x => x * b)) in H. unfold Rdiv in H. rewrite Rmult_assoc, Rinv_l in H by auto. lra.
  - intros [-> _]. now field.
Qed.
Lemma sum_const {A} (c : R) (l : list A) : sum_of (fun _ => c) l = c * INR (length l).
Proof. induction l as [|a l IH]; [unfold sum_of; cbn; lra|]. rewrite sum_cons, IH. cbn [length]. rewrite S_INR. lra. Qed.
Theorem similarity_range n scales kind s r : fits n kind s -> 0 <= similarity r kind scales s <= 1.
Proof.
  intros F. unfold similarity. cbv zeta. destruct (labelled s).
  - apply mean_range, total_range; [now apply joints_weighty with n|]. intros j _.
    pose proof (closeness_range (parameter j * r) (gap j)). lra.
  - apply mean_range. split.
    + apply sum_nonneg. intros j _. pose proof (closeness_range (parameter j * r) (box_distance (enlarged (s_box s)) (place (prediction j)))). lra.
    + rewrite <- (Rmult_1_l (INR _)), <- (sum_const 1 (joints kind scales s)). apply sum_le. intros j _.
      pose proof (closeness_range (parameter j * r) (box_distance (enlarged (s_box s)) (place (prediction j)))). lra.
Qed.

(** ** When it is one *)
Lemma sum_zero_all {A} (f : A -> R) l : (forall a, In a l -> 0 <= f a) -> sum_of f l = 0 -> forall a, In a l -> f a = 0.
Proof.
  induction l as [|b l IH]; intros P Z a []; rewrite sum_cons in Z.
  - subst b. pose proof (P a (or_introl eq_refl)). assert (0 <= sum_of f l) by (apply sum_nonneg; intros x X; apply P; now right). lra.
  - pose proof (P b (or_introl eq_refl)). assert (0 <= sum_of f l) by (apply sum_nonneg; intros x X; apply P; now right).
    apply IH; auto; [intros x X; apply P; now right | lra].
Qed.
Lemma sum_sub {A} (f g : A -> R) l : sum_of (fun a => f a - g a) l = sum_of f l - sum_of g l.
Proof. induction l as [|a l IH]; [unfold sum_of; cbn; lra|]. rewrite !sum_cons, IH. lra. Qed.
Lemma total_one f js : (forall j, In j js -> both j = true -> 0 < weight j) -> (forall j, In j js -> f j <= 1) ->
  total_of f js = total_weight js -> forall j, In j js -> both j = true -> f j = 1.
Proof.
  intros W F E j I B.
  assert (Z : sum_of (fun j => (if both j then weight j else 0) - (if both j then weight j * f j else 0)) js = 0).
  { rewrite sum_sub. unfold total_of, total_weight in E. lra. }
  assert (P : forall a, In a js -> 0 <= (if both a then weight a else 0) - (if both a then weight a * f a else 0)).
  { intros a A. specialize (F a A). destruct (both a) eqn:Ba; [|lra]. specialize (W a A Ba). nra. }
  pose proof (sum_zero_all _ js P Z j I) as S'. cbv beta in S'. rewrite B in S'. specialize (W j I B). nra.
Qed.
Lemma total_weight_pos js : (forall j, In j js -> both j = true -> 0 < weight j) ->
  total_weight js <> 0 <-> exists j, In j js /\ both j = true.
Proof.
  intros W. split.
  - intros N. destruct (existsb both js) eqn:E; [apply existsb_exists in E; eauto|]. exfalso. apply N. unfold total_weight. apply sum_zero.
    intros j I. destruct (both j) eqn:B; auto. assert (existsb both js = true) by (apply existsb_exists; eauto). congruence.
  - intros (j & I & B) Z. unfold total_weight in Z.
    assert (P : forall a, In a js -> 0 <= if both a then weight a else 0).
    { intros a A. destruct (both a) eqn:E; [specialize (W a A E); lra | lra]. }
    pose proof (sum_zero_all _ js P Z j I) as X. cbv beta in X. rewrite B in X. specialize (W j I B). lra.
Qed.
Theorem similarity_perfect scales kind s r : labelled s = true -> Forall (fun k => 0 < k) scales -> 0 < r ->
  Forall (fun w => 0 < w) (weight_row kind s) ->
  similarity r kind scales s = 1 <->
  (exists j, In j (joints kind scales s) /\ both j = true) /\
  forall j, In j (joints kind scales s) -> both j = true -> place (label j) = place (prediction j).
Proof.
  intros L K R W. unfold similarity. cbv zeta. rewrite L. rewrite mean_one.
  set (js := joints kind scales s) in *.
  assert (PW : forall j, In j js -> both j = true -> 0 < weight j).
  { intros j I _. apply in_joints in I. destruct I as (_ & _ & _ & X). rewrite Forall_forall in W. auto. }
  rewrite (total_weight_pos js PW).
  assert (PT : forall j, In j js -> parameter j * r <> 0).
  { intros j I. apply in_joints in I. destruct I as (_ & _ & X & _). rewrite Forall_forall in K. specialize (K _ X). nra. }
  split.
  - intros [E X]. split; auto. intros j I B. apply gap_zero. apply (closeness_one (parameter j * r)); auto.
    apply (total_one (fun j => closeness (parameter j * r) (gap j)) js); auto.
    intros a _. apply closeness_range.
  - intros [X A]. split; auto. unfold total_of, total_weight. apply sum_ext. intros j I. destruct (both j) eqn:B; auto.
    specialize (A j I B). apply gap_zero in A. rewrite (proj2 (closeness_one (parameter j * r) (gap j) (PT j I)) A). lra.
Qed.

(** ** Closer predictions *)
Lemma closer_sums (h : R -> keypoint -> keypoint -> R) gt : forall pr pr' ks ws, length pr = length gt -> length pr' = length gt ->
  Forall (fun w => 0 <= w) ws ->
  (forall g p p' k, In (g, (p, p')) (combine gt (combine pr pr')) -> there p = there p' /\ (there g && there p = true -> h k g p <= h k g p')) ->
  let js := map mk (combine (combine (combine gt pr) ks) ws) in
  let js' := map mk (combine (combine (combine gt pr') ks) ws) in
  total_weight js = total_weight js' /\
  total_of (fun j => h (parameter j) (label j) (prediction j)) js <= total_of (fun j => h (parameter j) (label j) (prediction j)) js'.
Proof.
  induction gt as [|g gt IH]; intros [|p pr] [|p' pr'] ks ws P P' W H; cbn [length] in *; try lia; [cbv zeta; cbn; split; reflexivity || lra|].
  destruct ks as [|k ks]; [cbv zeta; cbn; split; reflexivity || lra|]. destruct ws as [|w ws]; [cbv zeta; cbn; split; reflexivity || lra|].
  inversion W as [|? ? W1 W2]; subst.
  destruct (IH pr pr' ks ws) as [A B]; [lia | lia | auto | intros; apply H; cbn [combine]; now right|].
  destruct (H g p p' k (or_introl eq_refl)) as [T C].
  cbn [combine map]. cbv zeta. unfold total_weight, total_of in *. rewrite !sum_cons.
  change (both (mk (g, p, k, w))) with (there g && there p). change (both (mk (g, p', k, w))) with (there g && there p').
  rewrite <- T. cbn [mk label prediction parameter weight fst snd] in *. split.
  - f_equal. exact A.
  - apply Rplus_le_compat; [|exact B]. destruct (there g && there p); [|lra]. apply Rmult_le_compat_l; auto.
Qed.
Theorem similarity_closer n scales kind s pr r : fits n kind s -> length pr = n -> labelled s = true ->
  (forall g p p', In (g, (p, p')) (combine (s_gt s) (combine (s_pr s) pr)) ->
     there p' = there p /\ (there g && there p = true -> dist3 (place g) (place p') <= dist3 (place g) (place p))) ->
  similarity r kind scales s <= similarity r kind scales (predict s pr).
Proof.
  intros F P L H. pose proof (weight_row_nonneg n kind s F) as W. pose proof F as (G & P0 & _).
  unfold similarity. cbv zeta. change (labelled (predict s pr)) with (labelled s). rewrite L.
  destruct (closer_sums (fun k g p => closeness (k * r) (dist3 (place g) (place p))) (s_gt s) (s_pr s) pr scales (weight_row kind s)) as [A B];
    [lia | lia | auto | | ].
  - intros g p p' k I. destruct (H g p p' I) as [T C]. split; [auto|]. intros X. apply closeness_mono. split; [apply sqrt_pos | auto].
  - change (joints kind scales (predict s pr)) with (map mk (combine (combine (combine (s_gt s) pr) scales) (weight_row kind s))).
    change (joints kind scales s) with (map mk (combine (combine (combine (s_gt s) (s_pr s)) scales) (weight_row kind s))).
    rewrite <- A. apply mean_le; [exact B|]. unfold total_weight. apply sum_nonneg. intros j I. destruct (both j); [|lra].
    change (In j (joints kind scales s)) in I. apply (joints_weighty n kind scales s F j I).
Qed.
Lemma combine_swap (gt pr pr' : list keypoint) : forall g p p',
  In (g, (p, p')) (combine gt (combine pr' pr)) -> In (g, (p', p)) (combine gt (combine pr pr')).
Proof.
  revert pr pr'. induction gt as [|a gt IH]; intros [|b pr] [|c pr'] g p p'; cbn [combine In]; auto.
  intros [E|I]; [left; injection E as -> -> ->; reflexivity | right; now apply IH].
Qed.
Theorem similarity_missing n scales kind s pr r : fits n kind s -> length pr = n -> labelled s = true ->
  (forall g p p', In (g, (p, p')) (combine (s_gt s) (combine (s_pr s) pr)) ->
     there p' = there p /\ (there g && there p = true -> place p' = place p)) ->
  similarity r kind scales s = similarity r kind scales (predict s pr).
Proof.
  intros F P L H. apply Rle_antisym.
  - apply similarity_closer with n; auto. intros g p p' I. destruct (H g p p' I) as [T C]. split; auto. intros X. rewrite (C X). lra.
  - assert (F' : fits n kind (predict s pr)) by (destruct F as (G & _ & X & Y); repeat split; auto).
    pose proof F as (G & P0 & _).
    pose proof (similarity_closer n scales kind (predict s pr) (s_pr s) r F' P0 L) as Q.
    replace (predict (predict s pr) (s_pr s)) with s in Q by (destruct s; reflexivity). apply Q.
    cbn [s_gt s_pr predict]. intros g p p' I. destruct (H g p' p (combine_swap _ _ _ _ _ _ I)) as [T C]. split; auto.
    intros X. rewrite T in X. rewrite (C X). lra.
Qed.

(** ** Without labels *)
Lemma abs_excess h x : 0 <= h -> Rmax 0 (Rabs x - h) = 0 <-> Rabs x <= h.
Proof. intros H. unfold Rmax. destruct (Rle_dec 0 (Rabs x - h)); lra. Qed.
Lemma excess_nonneg x : 0 <= Rmax 0 x. Proof. apply Rmax_l. Qed.
Lemma enlarged_zero b q : sane_box b -> box_distance (enlarged b) q = 0 <-> in_enlarged b q.
Proof.
  intros (X & Y & Z). unfold box_distance, in_enlarged, enlarged. cbn [cx cy cz sx sy sz heading]. cbv zeta. rewrite cos_0, sin_0.
  replace (1 * (fst (fst q) - cx b) - 0 * (snd (fst q) - cy b)) with (fst (fst q) - cx b) by ring.
  replace (0 * (fst (fst q) - cx b) + 1 * (snd (fst q) - cy b)) with (snd (fst q) - cy b) by ring.
  rewrite <- (abs_excess (3 * sx b / 2)) by lra. rewrite <- (abs_excess (3 * sy b / 2)) by lra. rewrite <- (abs_excess (3 * sz b / 2)) by lra.
  set (ex := Rmax 0 _). set (ey := Rmax 0 _). set (ez := Rmax 0 _).
  assert (0 <= ex) by apply excess_nonneg. assert (0 <= ey) by apply excess_nonneg. assert (0 <= ez) by apply excess_nonneg. split.
  - intros E. now apply sqrt_sum_zero in E.
  - intros (-> & -> & ->). replace (0 * 0 + 0 * 0 + 0 * 0) with 0 by ring. apply sqrt_0.
Qed.
Theorem similarity_surrogate n scales kind s r : fits n kind s -> length scales = n -> (0 < n)%nat -> labelled s = false ->
  sane_box (s_box s) -> Forall (fun k => 0 < k) scales -> 0 < r ->
  similarity r kind scales s = 1 <-> Forall (fun p => in_enlarged (s_box s) (place p)) (s_pr s).
Proof.
  intros F K N L B PK R. pose proof (joints_length n kind scales s F K) as JL. unfold similarity. cbv zeta. rewrite L, mean_one.
  set (js := joints kind scales s) in *. set (f := fun j => closeness (parameter j * r) (box_distance (enlarged (s_box s)) (place (prediction j)))).
  assert (PT : forall j, In j js -> parameter j * r <> 0).
  { intros j I. apply in_joints in I. destruct I as (_ & _ & X & _). rewrite Forall_forall in PK. specialize (PK _ X). nra. }
  assert (C : forall j, In j js -> f j = 1 <-> in_enlarged (s_box s) (place (prediction j))).
  { intros j I. unfold f. rewrite closeness_one by auto. now apply enlarged_zero. }
  assert (E : map prediction js = s_pr s).
  { pose proof (weight_row_length n kind s F) as WL. destruct F as (G & P & _). unfold js, joints. rewrite map_map. cbn [prediction].
    clear - G P K WL. revert n G P K WL. generalize (s_gt s) as gt, (s_pr s) as pr, (weight_row kind s) as ws. intros gt.
    revert scales. induction gt as [|g gt IH]; intros [|k ks] [|p pr] [|w ws] n G P K WL; cbn [length] in *; try lia; auto.
    cbn [combine map fst snd]. f_equal. apply IH with (length gt); lia. }
  assert (NZ : INR (length js) <> 0) by (rewrite JL; apply not_0_INR; lia).
  rewrite <- E, Forall_map, Forall_forall. split.
  - intros [S _] j I. apply C; auto. rewrite <- (Rmult_1_l (INR _)), <- (sum_const 1 js) in S.
    assert (Z : sum_of (fun j => 1 - f j) js = 0) by (rewrite sum_sub; lra).
    assert (P : forall a, In a js -> 0 <= 1 - f a) by (intros a _; pose proof (closeness_range (parameter a * r) (box_distance (enlarged (s_box s)) (place (prediction a)))); unfold f; lra).
    pose proof (sum_zero_all _ js P Z j I) as Q. cbv beta in Q. lra.
  - intros A. split; auto. rewrite <- (Rmult_1_l (INR _)), <- (sum_const 1 js). apply sum_ext. intros j I. apply C; auto.
Qed.

(** ** Other units *)
Lemma zoom_fits n kind c s : fits n kind s -> fits n kind (zoom c s).
Proof. intros (G & P & W & K). unfold fits, zoom. cbn [s_gt s_pr s_weight]. rewrite !map_length. auto. Qed.
Lemma zoom_size two_d c b r : 0 < c -> is_size two_d b r -> is_size two_d (zoom_box c b) (c * r).
Proof.
  intros C [P E]. unfold is_size, zoom_box. cbn [sx sy sz]. split; [nra|]. destruct two_d.
  - replace (c * r * (c * r)) with (c * c * (r * r)) by ring. rewrite E. ring.
  - replace (c * r * (c * r) * (c * r)) with (c * c * c * (r * r * r)) by ring. rewrite E. ring.
Qed.
Lemma zoom_labelled c s : labelled (zoom c s) = labelled s.
Proof. unfold labelled, zoom. cbn [s_gt]. induction (s_gt s) as [|g gt IH]; auto. cbn [map existsb]. rewrite IH. reflexivity. Qed.
Definition zoom_joint (c : R) (j : joint) : joint :=
  {| label := zoom_point c (label j); prediction := zoom_point c (prediction j); parameter := parameter j; weight := weight j |}.
Lemma zoom_joints kind ks c s : joints kind ks (zoom c s) = map (zoom_joint c) (joints kind ks s).
Proof.
  unfold joints. rewrite map_map. replace (weight_row kind (zoom c s)) with (weight_row kind s).
  2: { unfold weight_row, zoom. cbn [s_gt s_weight]. now rewrite map_length. }
  unfold zoom. cbn [s_gt s_pr]. generalize (weight_row kind s) as ws, (s_pr s) as pr. revert ks.
  induction (s_gt s) as [|g gt IH]; intros [|k ks] ws [|p pr]; auto. destruct ws as [|w ws]; auto.
  cbn [map combine]. f_equal. apply IH.
Qed.
Lemma zoom_both c j : both (zoom_joint c j) = both j. Proof. reflexivity. Qed.
Lemma sqrt_scale c x : 0 < c -> sqrt (c * c * x) = c * sqrt x.
Proof. intros C. rewrite sqrt_mult_alt by nra. rewrite sqrt_square by lra. reflexivity. Qed.
Lemma zoom_gap c j : 0 < c -> gap (zoom_joint c j) = c * gap j.
Proof.
  intros C. unfold gap, dist3, zoom_joint, zoom_point, place. cbn [label prediction px py pz fst snd].
  rewrite <- sqrt_scale by auto. f_equal. ring.
Qed.
Lemma excess_scale c x : 0 < c -> Rmax 0 (c * x) = c * Rmax 0 x.
Proof. intros C. unfold Rmax. destruct (Rle_dec 0 x), (Rle_dec 0 (c * x)); nra. Qed.
Lemma abs_scale c x : 0 < c -> Rabs (c * x) = c * Rabs x.
Proof. intros C. rewrite Rabs_mult, (Rabs_right c) by lra. reflexivity. Qed.
Lemma zoom_distance c b k : 0 < c -> box_distance (enlarged (zoom_box c b)) (place (zoom_point c k)) = c * box_distance (enlarged b) (place k).
Proof.
  intros C. unfold box_distance, enlarged, zoom_box, place, zoom_point. cbn [cx cy cz sx sy sz heading px py pz fst snd]. cbv zeta.
  rewrite cos_0, sin_0.
  replace (1 * (c * px k - c * cx b) - 0 * (c * py k - c * cy b)) with (c * (1 * (px k - cx b) - 0 * (py k - cy b))) by ring.
  replace (0 * (c * px k - c * cx b) + 1 * (c * py k - c * cy b)) with (c * (0 * (px k - cx b) + 1 * (py k - cy b))) by ring.
  replace (c * pz k - c * cz b) with (c * (pz k - cz b)) by ring. rewrite !abs_scale by auto.
  replace (c * Rabs (1 * (px k - cx b) - 0 * (py k - cy b)) - 3 * (c * sx b) / 2) with (c * (Rabs (1 * (px k - cx b) - 0 * (py k - cy b)) - 3 * sx b / 2)) by field.
  replace (c * Rabs (0 * (px k - cx b) + 1 * (py k - cy b)) - 3 * (c * sy b) / 2) with (c * (Rabs (0 * (px k - cx b) + 1 * (py k - cy b)) - 3 * sy b / 2)) by field.
  replace (c * Rabs (pz k - cz b) - 3 * (c * sz b) / 2) with (c * (Rabs (pz k - cz b) - 3 * sz b / 2)) by field.
  rewrite !excess_scale by auto. rewrite <- sqrt_scale by auto. f_equal. ring.
Qed.
Theorem similarity_zoom c scales kind s r : 0 < c -> similarity (c * r) kind scales (zoom c s) = similarity r kind scales s.
Proof.
  intros C. unfold similarity. cbv zeta. rewrite zoom_labelled, zoom_joints, map_length. unfold total_of, total_weight. rewrite !sum_map.
  destruct (labelled s).
  - f_equal. apply sum_ext. intros j _. rewrite zoom_both, zoom_gap by auto. cbn [zoom_joint parameter weight].
    replace (parameter j * (c * r)) with (c * (parameter j * r)) by ring. rewrite closeness_zoom by lra. reflexivity.
  - f_equal. apply sum_ext. intros j _. cbn [zoom_joint parameter prediction s_box zoom]. rewrite zoom_distance by auto.
    replace (parameter j * (c * r)) with (c * (parameter j * r)) by ring. apply closeness_zoom. lra.
Qed.
