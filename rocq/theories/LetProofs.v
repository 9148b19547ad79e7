From Coq Require Import QArith Qabs Lqa Lia.
From Verif Require Import Base ResultLib MonadLib BoxModel BoxSpec BoxProofs IouModel IouSpec IouProofs.
Local Open Scope Q_scope.

Lemma to_sensor_center s b : center (to_sensor s b) = 
  let '(x, y, z) := s in (center_x b + - x, center_y b + - y, center_z b + - z).
Proof. destruct s as [[x y] z]. reflexivity. Qed.
Lemma dot_sensor s p g : center_dot (to_sensor s p) (to_sensor s g) == dot3 (minus3 (center p) s) (minus3 (center g) s).
Proof. destruct s as [[x y] z]. unfold center_dot, to_sensor, translate_lbox, dot3, minus3, center. cbn [center_x center_y center_z]. ring. Qed.
Lemma len_sensor s g : center_len_sq (to_sensor s g) == dot3 (minus3 (center g) s) (minus3 (center g) s).
Proof. destruct s as [[x y] z]. unfold center_len_sq, to_sensor, translate_lbox, dot3, minus3, center. cbn [center_x center_y center_z]. ring. Qed.

Lemma micro_eq r : qmax r kEpsilon == at_least_micro r.
Proof. unfold at_least_micro, kEpsilon. destruct (qmax_spec r (1 # 1000000)) as [[? ->]|[? ->]]; destruct (Qlt_le_dec r (1 # 1000000)); lra. Qed.
Lemma micro_pos r : 0 < at_least_micro r.
Proof. unfold at_least_micro. destruct (Qlt_le_dec r (1 # 1000000)); lra. Qed.
Lemma tolerance_eq cfg r r' : r == r' -> qmax (tolerance_percentage cfg * r) (min_tolerance cfg) == tolerance cfg r'.
Proof.
  intros E. unfold tolerance. assert (M : tolerance_percentage cfg * r == tolerance_percentage cfg * r') by (rewrite E; reflexivity).
  destruct (qmax_spec (tolerance_percentage cfg * r) (min_tolerance cfg)) as [[? ->]|[? ->]];
  destruct (Qlt_le_dec (tolerance_percentage cfg * r') (min_tolerance cfg)); lra.
Qed.

Global Instance qmax_comp : Proper (Qeq ==> Qeq ==> Qeq) qmax.
Proof.
  intros a a' Ha b b' Hb. destruct (qmax_spec a b) as [[? ->]|[? ->]]; destruct (qmax_spec a' b') as [[? ->]|[? ->]]; lra.
Qed.
Global Instance qmin_comp : Proper (Qeq ==> Qeq ==> Qeq) qmin.
Proof.
  intros a a' Ha b b' Hb. destruct (qmin_spec a b) as [[? ->]|[? ->]]; destruct (qmin_spec a' b') as [[? ->]|[? ->]]; lra.
Qed.
Global Instance clamp_proper : Proper (Qeq ==> Qeq ==> Qeq ==> Qeq) clamp.
Proof. intros a a' Ha b b' Hb c c' Hc. unfold clamp. rewrite Ha, Hb, Hc. reflexivity. Qed.
Lemma clamp_comp v w : v == w -> clamp v 0 1 == clamp w 0 1.
Proof. intros ->. reflexivity. Qed.

Theorem affinity_formula prediction gt cfg gl pl :
  let r := at_least_micro gl in
  let tol := tolerance cfg r in
  let err := longitudinal_error (sensor cfg) (center prediction) (center gt) r in
  (tol == 0 -> longitudinal_affinity prediction gt cfg gl pl == 0) /\
  (~ tol == 0 -> longitudinal_affinity prediction gt cfg gl pl == clamp (1 - err / Qabs tol) 0 1).
Proof.
  cbv zeta. unfold longitudinal_affinity.
  pose proof (micro_eq gl) as E1. pose proof (micro_eq pl) as E2. pose proof (micro_pos gl) as P1. pose proof (micro_pos pl) as P2.
  pose proof (tolerance_eq cfg _ _ E1) as T.
  split; intros H.
  - rewrite (proj2 (Qeq_bool_iff _ 0)); [reflexivity|]. rewrite T. exact H.
  - destruct (Qeq_bool (qmax (tolerance_percentage cfg * qmax gl kEpsilon) (min_tolerance cfg)) 0) eqn:E.
    + apply Qeq_bool_iff in E. rewrite T in E. contradiction.
    + apply clamp_comp. apply Qplus_comp; [reflexivity|]. apply Qopp_comp.
      unfold longitudinal_error. rewrite T, E1, E2, dot_sensor.
      set (d := dot3 _ _). unfold Qdiv at 1. rewrite Qabs_Qmult.
      assert (A : Qabs (/ tolerance cfg (at_least_micro gl)) == / Qabs (tolerance cfg (at_least_micro gl))).
      { set (t := tolerance cfg (at_least_micro gl)) in *. apply (Qmult_inj_r _ _ (Qabs t)).
        - intros C. apply H. destruct (Qlt_le_dec t 0) as [L|L].
          + rewrite Qabs_neg in C by lra. lra.
          + rewrite Qabs_pos in C by lra. exact C.
        - rewrite <- Qabs_Qmult. setoid_replace (/ t * t) with 1 by (field; exact H).
          rewrite Qmult_comm, Qmult_inv_r; [reflexivity|].
          intros C. apply H. destruct (Qlt_le_dec t 0) as [L|L].
          + rewrite Qabs_neg in C by lra. lra.
          + rewrite Qabs_pos in C by lra. exact C. }
      rewrite A. unfold Qdiv at 3. apply Qmult_comp; [|reflexivity].
      apply Qabs_wd. apply Qplus_comp; [|reflexivity]. field. split; lra.
Qed.

Theorem affinity_laws prediction gt cfg gl pl :
  let r := at_least_micro gl in
  let tol := tolerance cfg r in
  let err := longitudinal_error (sensor cfg) (center prediction) (center gt) r in
  let v := longitudinal_affinity prediction gt cfg gl pl in
  0 <= v /\ v <= 1 /\
  (0 < tol ->
    (err <= tol -> v == 1 - err / tol) /\ (v == 0 <-> tol <= err) /\ (v == 1 <-> err == 0)).
Proof.
  cbv zeta. destruct (affinity_formula prediction gt cfg gl pl) as [F0 F1].
  set (tol := tolerance cfg (at_least_micro gl)) in *.
  set (err := longitudinal_error (sensor cfg) (center prediction) (center gt) (at_least_micro gl)) in *.
  assert (E0 : 0 <= err) by (unfold err, longitudinal_error; apply Qabs_nonneg).
  assert (R : 0 <= longitudinal_affinity prediction gt cfg gl pl /\ longitudinal_affinity prediction gt cfg gl pl <= 1).
  { destruct (Qeq_dec tol 0) as [Z|Z]; [rewrite (F0 Z); split; lra|]. rewrite (F1 Z). apply clamp_range. }
  split; [apply R|]. split; [apply R|]. intros Hp.
  assert (Z : ~ tol == 0) by lra. rewrite (F1 Z). rewrite (Qabs_pos tol) by lra.
  assert (D : err / tol * tol == err) by (field; exact Z).
  assert (D0 : 0 <= err / tol) by (apply Qle_shift_div_l; lra).
  split; [|split].
  - intros L. assert (err / tol <= 1) by (apply Qle_shift_div_r; lra).
    destruct (clamp_val (1 - err / tol)) as [[? ->]|[[? [? ->]]|[? ->]]]; lra.
  - split.
    + intros V. destruct (clamp_val (1 - err / tol)) as [[? W]|[[? [? W]]|[? W]]]; rewrite W in V;
      (assert (1 <= err / tol) by lra; assert (1 * tol <= err / tol * tol) by (apply Qmult_le_compat_r; lra); lra).
    + intros L. assert (1 <= err / tol) by (apply Qle_shift_div_l; lra).
      destruct (clamp_val (1 - err / tol)) as [[? ->]|[[? [? ->]]|[? ->]]]; lra.
  - split.
    + intros V. destruct (clamp_val (1 - err / tol)) as [[? W]|[[? [? W]]|[? W]]]; rewrite W in V;
      (assert (S : err / tol == 0) by lra; rewrite S in D; lra).
    + intros L. assert (S : err / tol == 0) by (rewrite L; unfold Qdiv; ring).
      destruct (clamp_val (1 - err / tol)) as [[? ->]|[[? [? ->]]|[? ->]]]; lra.
Qed.

Lemma perfect_error s g gl : gl * gl == dot3 (minus3 g s) (minus3 g s) -> 1 # 1000000 <= gl ->
  longitudinal_error s g g (at_least_micro gl) == 0.
Proof.
  intros H L. unfold longitudinal_error, at_least_micro. destruct (Qlt_le_dec gl (1 # 1000000)); [lra|].
  rewrite <- H. setoid_replace (gl * gl / gl - gl) with 0; [reflexivity|]. field. lra.
Qed.

Theorem affinity_perfect gt prediction cfg gl pl :
  center prediction = center gt ->
  gl * gl == dot3 (minus3 (center gt) (sensor cfg)) (minus3 (center gt) (sensor cfg)) -> 1 # 1000000 <= gl ->
  0 < tolerance cfg gl -> longitudinal_affinity prediction gt cfg gl pl == 1.
Proof.
  intros E H L T. destruct (affinity_laws prediction gt cfg gl pl) as (_ & _ & A).
  assert (M : at_least_micro gl = gl) by (unfold at_least_micro; destruct (Qlt_le_dec gl (1 # 1000000)); [lra|reflexivity]).
  pose proof (perfect_error (sensor cfg) (center gt) gl H L) as PE. rewrite M in *.
  destruct (A T) as (_ & _ & O). apply O. rewrite E. exact PE.
Qed.

Theorem affinity_lateral p1 p2 gt cfg gl pl1 pl2 :
  dot3 (minus3 (center p1) (center p2)) (minus3 (center gt) (sensor cfg)) == 0 ->
  longitudinal_affinity p1 gt cfg gl pl1 == longitudinal_affinity p2 gt cfg gl pl2.
Proof.
  intros H. destruct (affinity_formula p1 gt cfg gl pl1) as [A0 A1]. destruct (affinity_formula p2 gt cfg gl pl2) as [B0 B1].
  destruct (Qeq_dec (tolerance cfg (at_least_micro gl)) 0) as [Z|Z]; [rewrite (A0 Z), (B0 Z); reflexivity|].
  rewrite (A1 Z), (B1 Z). apply clamp_comp. apply Qplus_comp; [reflexivity|]. apply Qopp_comp.
  apply Qmult_comp; [|reflexivity]. unfold longitudinal_error. apply Qabs_wd. apply Qplus_comp; [|reflexivity].
  apply Qmult_comp; [|reflexivity].
  revert H. unfold center. destruct (sensor cfg) as [[sx sy] sz]. unfold dot3, minus3. intros H. lra.
Qed.

Theorem affinity_monotone p1 p2 gt cfg gl pl1 pl2 :
  let r := at_least_micro gl in
  longitudinal_error (sensor cfg) (center p1) (center gt) r <= longitudinal_error (sensor cfg) (center p2) (center gt) r ->
  longitudinal_affinity p2 gt cfg gl pl2 <= longitudinal_affinity p1 gt cfg gl pl1.
Proof.
  cbv zeta. intros H. destruct (affinity_formula p1 gt cfg gl pl1) as [A0 A1]. destruct (affinity_formula p2 gt cfg gl pl2) as [B0 B1].
  destruct (Qeq_dec (tolerance cfg (at_least_micro gl)) 0) as [Z|Z]; [rewrite (A0 Z), (B0 Z); lra|].
  rewrite (A1 Z), (B1 Z). set (t := Qabs (tolerance cfg (at_least_micro gl))) in *.
  assert (Pt : 0 < t).
  { unfold t. destruct (Qlt_le_dec (tolerance cfg (at_least_micro gl)) 0) as [L|L]; [rewrite Qabs_neg by lra; lra|].
    rewrite Qabs_pos by lra. assert (~ 0 == tolerance cfg (at_least_micro gl)) by (intros C; apply Z; symmetry; exact C).
    apply Qle_lteq in L. destruct L as [L|L]; [exact L|contradiction]. }
  set (e1 := longitudinal_error _ (center p1) _ _) in *. set (e2 := longitudinal_error _ (center p2) _ _) in *.
  assert (D : e1 / t <= e2 / t).
  { unfold Qdiv. apply Qmult_le_compat_r; [exact H|]. apply Qlt_le_weak. apply Qinv_lt_0_compat. exact Pt. }
  destruct (clamp_val (1 - e1 / t)) as [[? ->]|[[? [? ->]]|[? ->]]]; destruct (clamp_val (1 - e2 / t)) as [[? ->]|[[? [? ->]]|[? ->]]]; lra.
Qed.

Definition bx (x y z : Q) : lbox :=
  {| center_x := x; center_y := y; center_z := z; blength := 4; bwidth := 2; bheight := 2; bheading := 0 |}.
Theorem zero_tolerance_refuted : exists b cfg gl pl,
  gl * gl == dot3 (minus3 (center b) (sensor cfg)) (minus3 (center b) (sensor cfg)) /\ 1 # 1000000 <= gl /\
  longitudinal_affinity b b cfg gl pl == 0.
Proof.
  exists (bx 10 0 0), {| sensor := (0, 0, 0); tolerance_percentage := 0; min_tolerance := 0 |}, 10, 10.
  split; [reflexivity|]. split; [discriminate|]. reflexivity.
Qed.

(** ** Alignment *)
Lemma line_dist m t px py pz gx gy gz :
  px * gx + py * gy + pz * gz == m * (px * px + py * py + pz * pz) ->
  (px * m - gx) * (px * m - gx) + (py * m - gy) * (py * m - gy) + (pz * m - gz) * (pz * m - gz) <=
  (px * t - gx) * (px * t - gx) + (py * t - gy) * (py * t - gy) + (pz * t - gz) * (pz * t - gz).
Proof.
  intros H. set (n := px * px + py * py + pz * pz) in *. set (d := px * gx + py * gy + pz * gz) in *.
  assert (E : (px * t - gx) * (px * t - gx) + (py * t - gy) * (py * t - gy) + (pz * t - gz) * (pz * t - gz) -
              ((px * m - gx) * (px * m - gx) + (py * m - gy) * (py * m - gy) + (pz * m - gz) * (pz * m - gz)) ==
              (t - m) * (n * (t + m) - 2 * d)) by (unfold n, d; ring).
  rewrite H in E. assert (E2 : (t - m) * (n * (t + m) - 2 * (m * n)) == n * ((t - m) * (t - m))) by ring.
  rewrite E2 in E.
  assert (0 <= n) by (unfold n; pose proof (sq_nonneg px); pose proof (sq_nonneg py); pose proof (sq_nonneg pz); lra).
  pose proof (Qmult_le_0_compat _ _ H0 (sq_nonneg (t - m))). lra.
Qed.

Section Align.
Variables (p g : lbox).
Let n := dot3 (center p) (center p).
Let d := dot3 (center p) (center g).
Hypothesis far : 1 # 1000000 <= n.
Let m := d / n.

Lemma n_pos : 0 < n. Proof. lra. Qed.
Lemma m_n : m * n == d.
Proof. unfold m. field. intros C. pose proof n_pos. lra. Qed.
Lemma m_eq : center_dot p g / qmax (center_len_sq p) kEpsilon == m.
Proof.
  unfold m. apply Qmult_comp.
  - unfold d, dot3, center, center_dot. ring.
  - apply Qinv_comp. unfold kEpsilon.
    assert (E : center_len_sq p == n) by (unfold n, dot3, center, center_len_sq; ring).
    destruct (qmax_spec (center_len_sq p) (1 # 1000000)) as [[? ->]|[? ->]]; lra.
Qed.
Lemma m_ge0 : 0 <= m <-> 0 <= d.
Proof.
  pose proof n_pos as P. pose proof m_n as E. split; intros H.
  - rewrite <- E. apply Qmult_le_0_compat; [exact H|lra].
  - unfold m. apply Qle_shift_div_l; lra.
Qed.
Lemma m_lt1 : m < 1 <-> d < n.
Proof.
  pose proof n_pos as P. pose proof m_n as E. split; intros H.
  - rewrite <- E. assert (m * n < 1 * n) by (apply Qmult_lt_compat_r; assumption). lra.
  - unfold m. apply Qlt_shift_div_r; lra.
Qed.

Lemma closest_m q : q == m -> closest_on_line (center (set_center p (center_x p * q) (center_y p * q) (center_z p * q))) (center p) (center g).
Proof.
  intros E. unfold closest_on_line, center, set_center, scale, same_point, dist3. cbn [center_x center_y center_z]. split.
  - exists q. repeat split; reflexivity.
  - intros t. apply line_dist. rewrite E. pose proof m_n as M. unfold n, d, dot3, center in M. rewrite M. reflexivity.
Qed.
Lemma same_m q : q == 1 -> same_point (center (set_center p (center_x p * q) (center_y p * q) (center_z p * q))) (center p).
Proof. intros E. unfold center, set_center, same_point. cbn [center_x center_y center_z]. rewrite E. repeat split; ring. Qed.

Lemma before_iff : negb (Qle_bool 1 (center_dot p g / qmax (center_len_sq p) kEpsilon)) &&
  Qle_bool 0 (center_dot p g / qmax (center_len_sq p) kEpsilon) = true <-> 0 <= d /\ d < n.
Proof.
  rewrite Bool.andb_true_iff, Bool.negb_true_iff, qle_nb, qle_b, m_eq, m_ge0, m_lt1. tauto.
Qed.

Theorem range_aligned : exists c, aligned_prediction_box p g RANGE_ALIGNED = Ok c /\ same_extent c p /\
  closest_on_line (center c) (center p) (center g).
Proof.
  cbn [aligned_prediction_box]. eexists. split; [reflexivity|]. split; [repeat split; reflexivity|]. apply closest_m. apply m_eq.
Qed.
Theorem further_only : exists c, aligned_prediction_box p g FURTHER_ONLY = Ok c /\ same_extent c p /\
  (0 <= d /\ d < n -> closest_on_line (center c) (center p) (center g)) /\
  (~ (0 <= d /\ d < n) -> same_point (center c) (center p)).
Proof.
  cbn [aligned_prediction_box]. eexists. split; [reflexivity|]. split; [repeat split; reflexivity|]. unfold multiplier. split; intros H.
  - rewrite (proj2 before_iff H). apply closest_m. apply m_eq.
  - destruct (negb _ && _) eqn:E; [apply before_iff in E; contradiction|]. apply same_m. reflexivity.
Qed.
Theorem any_closer : exists c, aligned_prediction_box p g ANY_CLOSER_ONLY = Ok c /\ same_extent c p /\
  (0 <= d /\ d < n -> same_point (center c) (center p)) /\
  (~ (0 <= d /\ d < n) -> closest_on_line (center c) (center p) (center g)).
Proof.
  cbn [aligned_prediction_box]. eexists. split; [reflexivity|]. split; [repeat split; reflexivity|]. unfold multiplier. split; intros H.
  - rewrite (proj2 before_iff H). apply same_m. reflexivity.
  - destruct (negb _ && _) eqn:E; [apply before_iff in E; contradiction|]. apply closest_m. apply m_eq.
Qed.
Theorem between : exists c, aligned_prediction_box p g BETWEEN_ONLY = Ok c /\ same_extent c p /\
  (n <= d -> closest_on_line (center c) (center p) (center g)) /\
  (d < n -> same_point (center c) (center p)).
Proof.
  cbn [aligned_prediction_box]. eexists. split; [reflexivity|]. split; [repeat split; reflexivity|]. unfold multiplier.
  pose proof m_lt1 as L. pose proof m_eq as M.
  destruct (qmax_spec (center_dot p g / qmax (center_len_sq p) kEpsilon) 1) as [[H1 H2]|[H1 H2]]; split; intros H.
  - apply closest_m. rewrite H2. rewrite M in H1. destruct (Qlt_le_dec m 1) as [C|C]; [apply L in C; lra|]. lra.
  - apply same_m. exact H2.
  - apply closest_m. rewrite H2. exact M.
  - apply same_m. rewrite H2, M. rewrite M in H1. apply L in H. lra.
Qed.
End Align.

Theorem range_aligned_near_refuted : exists p g c, aligned_prediction_box p g RANGE_ALIGNED = Ok c /\
  0 < dot3 (center p) (center p) /\ ~ closest_on_line (center c) (center p) (center g).
Proof.
  exists (bx (1 # 10000) 0 0), (bx 1 0 0). eexists. split; [reflexivity|]. split; [reflexivity|].
  intros [_ H]. specialize (H 10000). vm_compute in H. apply H. reflexivity.
Qed.

Theorem center_aligned p g : exists c, aligned_prediction_box p g CENTER_ALIGNED = Ok c /\ same_extent c p /\
  center_x c = center_x g /\ center_y c = center_y g /\ center_z c = center_z p.
Proof. eexists. split; [reflexivity|]. repeat split; reflexivity. Qed.
Theorem center_aligned_refuted : exists p g c, aligned_prediction_box p g CENTER_ALIGNED = Ok c /\ ~ same_point (center c) (center g).
Proof. exists (bx 0 0 1), (bx 0 0 0). eexists. split; [reflexivity|]. intros (_ & _ & H). vm_compute in H. discriminate. Qed.

Lemma same_extent_usable a b : same_extent a b -> usable a <-> usable b.
Proof. intros (A & B & C & _). unfold usable. rewrite A, B, C. reflexivity. Qed.

Lemma aligned_ok p g a : a <> ALIGN_UNKNOWN -> exists c, aligned_prediction_box p g a = Ok c /\ same_extent c p.
Proof. intros H. destruct a; try congruence; (eexists; split; [reflexivity|repeat split; reflexivity]). Qed.

Theorem let_iou poly p g s a t : area_contract poly ->
  (t = TYPE_3D \/ t = TYPE_2D -> a <> ALIGN_UNKNOWN ->
    exists c v, aligned_prediction_box (to_sensor s p) (to_sensor s g) a = Ok c /\ same_extent c p /\
      compute_let_iou poly p g s a t = Ok v /\ compute_iou poly c (to_sensor s g) t = Ok v /\ 0 <= v /\ v <= 1) /\
  (~ (t = TYPE_3D \/ t = TYPE_2D) \/ a = ALIGN_UNKNOWN -> compute_let_iou poly p g s a t = Err CheckFailed).
Proof.
  intros K. split.
  - intros T A. destruct (aligned_ok (to_sensor s p) (to_sensor s g) a A) as (c & E & S).
    assert (S' : same_extent c p) by (destruct s as [[sx sy] sz]; exact S).
    assert (V : exists v, compute_iou poly c (to_sensor s g) t = Ok v /\ 0 <= v /\ v <= 1).
    { destruct T as [-> | ->].
      - destruct (laws_3d poly K c (to_sensor s g)) as (v & _ & E' & _ & _ & V0 & V1 & _). exists v. tauto.
      - destruct (laws_2d poly K c (to_sensor s g)) as (v & _ & E' & _ & _ & V0 & V1 & _). exists v. tauto. }
    destruct V as (v & Ev & V0 & V1). exists c, v. split; [exact E|]. split; [exact S'|].
    split; [|split; [exact Ev|split; assumption]].
    unfold compute_let_iou. rewrite E. cbn [bind]. destruct T as [-> | ->]; exact Ev.
  - intros H. destruct t; try reflexivity; (destruct H as [H| ->]; [exfalso; apply H; tauto|reflexivity]).
Qed.

Theorem unknown_type poly a b : compute_iou poly a b TYPE_UNKNOWN =
  if huge a || huge b then Ok 0 else Err CheckFailed.
Proof. reflexivity. Qed.
Theorem unknown_type_iff poly a b :
  (compute_iou poly a b TYPE_UNKNOWN = Err CheckFailed <->
   forall c, c = a \/ c = b -> blength c < 1000000 /\ bwidth c < 1000000 /\ bheight c < 1000000) /\
  (compute_iou poly a b TYPE_UNKNOWN <> Err CheckFailed -> compute_iou poly a b TYPE_UNKNOWN = Ok 0).
Proof.
  rewrite unknown_type. destruct (huge a) eqn:Ha; [|destruct (huge b) eqn:Hb]; cbn [orb].
  - split; [|reflexivity]. split; [discriminate|]. intros H. specialize (H a (or_introl eq_refl)). apply huge_false in H. congruence.
  - split; [|reflexivity]. split; [discriminate|]. intros H. specialize (H b (or_intror eq_refl)). apply huge_false in H. congruence.
  - split; [|congruence]. split; [|reflexivity]. intros _ c [-> | ->]; apply huge_false; assumption.
Qed.

Theorem batch_spec poly b l t vs : batch_compute_iou poly b l t = Ok vs <->
  Forall2 (fun c v => compute_iou poly b c t = Ok v) l vs.
Proof.
  unfold batch_compute_iou. destruct l as [|c l].
  - split; intros H; [apply Ok_inj in H; subst; constructor|]. inversion H. reflexivity.
  - split; [apply mapM_inv|apply (mapM_Forall2 (fun b2 => compute_iou poly b b2 t))].
Qed.
