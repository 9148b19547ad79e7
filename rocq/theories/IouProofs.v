From Coq Require Import QArith Qabs Lqa Lia.
From Verif Require Import Base ResultLib MonadLib BoxModel BoxSpec BoxProofs IouModel IouSpec.
Local Open Scope Q_scope.
Open Scope list_scope.

Lemma qmax_spec a b : (a <= b /\ qmax a b == b) \/ (b <= a /\ qmax a b == a).
Proof.
  unfold qmax. destruct (Qle_bool b a) eqn:E; cbn [negb].
  - right. apply qle_b in E. split; [exact E|reflexivity].
  - left. apply qle_nb in E. split; [lra|reflexivity].
Qed.
Lemma qmin_spec a b : (a <= b /\ qmin a b == a) \/ (b <= a /\ qmin a b == b).
Proof.
  unfold qmin. destruct (Qle_bool a b) eqn:E; cbn [negb].
  - left. apply qle_b in E. split; [exact E|reflexivity].
  - right. apply qle_nb in E. split; [lra|reflexivity].
Qed.
Lemma qmin_qmax_id v : 0 <= v -> v <= 1 -> qmax (qmin v 1) 0 == v.
Proof. intros. destruct (qmin_spec v 1) as [[? ?]|[? ?]]; destruct (qmax_spec (qmin v 1) 0) as [[? ?]|[? ?]]; lra. Qed.
Lemma clamp_range v : 0 <= clamp v 0 1 /\ clamp v 0 1 <= 1.
Proof. unfold clamp. destruct (qmin_spec v 1) as [[? ?]|[? ?]]; destruct (qmax_spec 0 (qmin v 1)) as [[? ?]|[? ?]]; lra. Qed.
Lemma clamp_val v : (v <= 0 /\ clamp v 0 1 == 0) \/ (0 <= v /\ v <= 1 /\ clamp v 0 1 == v) \/ (1 <= v /\ clamp v 0 1 == 1).
Proof.
  unfold clamp. destruct (qmin_spec v 1) as [[? ?]|[? ?]]; destruct (qmax_spec 0 (qmin v 1)) as [[? ?]|[? ?]];
  destruct (Qlt_le_dec v 0); destruct (Qlt_le_dec 1 v);
  first [left; split; lra | right; left; split; [lra|split; lra] | right; right; split; lra].
Qed.

Lemma ratio_ok (i s1 s2 : Q) : 0 <= i -> i <= s1 -> i <= s2 -> kEpsilon < s1 ->
  exists v, ratio i s1 s2 = Ok v /\ v == over_union i s1 s2 /\ 0 <= v /\ v <= 1 /\
    (v == 0 <-> i == 0) /\ (v == 1 <-> i == s1 /\ i == s2).
Proof.
  intros H0 H1 H2 He. unfold ratio, over_union.
  assert (P : 0 < s1 + s2 - i) by (unfold kEpsilon in He; lra).
  assert (E1 : Qle_bool (s1 + s2 - i) kEpsilon = false) by (apply qle_nb; lra).
  assert (R0 : 0 <= i / (s1 + s2 - i)) by (apply Qle_shift_div_l; [exact P|lra]).
  assert (R1 : i / (s1 + s2 - i) <= 1) by (apply Qle_shift_div_r; [exact P|lra]).
  rewrite E1.
  assert (E2 : Qle_bool (- kEpsilon) (i / (s1 + s2 - i)) = true) by (apply qle_b; unfold kEpsilon; lra).
  assert (E3 : Qle_bool (i / (s1 + s2 - i)) (1 + kEpsilon) = true) by (apply qle_b; unfold kEpsilon; lra).
  rewrite E2, E3. cbn [negb].
  assert (V : qmax (qmin (i / (s1 + s2 - i)) 1) 0 == i / (s1 + s2 - i)) by (apply qmin_qmax_id; assumption).
  assert (M : i / (s1 + s2 - i) * (s1 + s2 - i) == i) by (field; lra).
  eexists. split; [reflexivity|]. split; [exact V|]. split; [rewrite V; exact R0|]. split; [rewrite V; exact R1|]. split.
  - rewrite V. split; intros H.
    + rewrite H in M. lra.
    + rewrite H. unfold Qdiv. ring.
  - rewrite V. split; intros H.
    + rewrite H in M. split; lra.
    + destruct H as [A B]. assert (S : s1 + s2 - i == i) by lra.
      assert (N : ~ s1 + s2 - i == 0) by lra.
      assert (i / (s1 + s2 - i) == i / i) as ->.
      { unfold Qdiv. apply Qmult_comp; [reflexivity|]. rewrite S. reflexivity. }
      field. lra.
Qed.

Lemma tiny2_true b : tiny2 b = true <-> blength b <= 1 # 100 \/ bwidth b <= 1 # 100.
Proof. unfold tiny2, kMinBoxDim. rewrite Bool.orb_true_iff, !qle_b. reflexivity. Qed.
Lemma tiny2_false b : tiny2 b = false <-> 1 # 100 < blength b /\ 1 # 100 < bwidth b.
Proof. unfold tiny2, kMinBoxDim. rewrite Bool.orb_false_iff, !qle_nb. reflexivity. Qed.
Lemma huge_false b : huge b = false <-> blength b < 1000000 /\ bwidth b < 1000000 /\ bheight b < 1000000.
Proof. unfold huge, kMaxBoxDim. rewrite !Bool.orb_false_iff, !qle_nb. tauto. Qed.
Lemma usable_iff b : usable b <-> huge b = false /\ tiny2 b = false.
Proof. rewrite huge_false, tiny2_false. unfold usable. tauto. Qed.
Lemma usable3_iff b : usable3 b <-> huge b = false /\ tiny2 b = false /\ Qle_bool (bheight b) kMinBoxDim = false.
Proof. unfold usable3. rewrite usable_iff, qle_nb. unfold kMinBoxDim. tauto. Qed.
Lemma usable_dec b : usable b \/ ~ usable b.
Proof. rewrite usable_iff. destruct (huge b), (tiny2 b); intuition congruence. Qed.
Lemma usable3_dec b : usable3 b \/ ~ usable3 b.
Proof. rewrite usable3_iff. destruct (huge b), (tiny2 b), (Qle_bool (bheight b) kMinBoxDim); intuition congruence. Qed.

Lemma area_pos b : usable b -> 0 < area b.
Proof. intros (A & _ & B & _ & _). unfold area. nra. Qed.
Lemma area_eps b : usable b -> kEpsilon < area b.
Proof.
  intros (A & _ & B & _ & _). unfold area, kEpsilon.
  assert (0 < (blength b - (1 # 100)) * (bwidth b - (1 # 100))) by (apply Qmult_lt_0_compat; lra). lra.
Qed.
Lemma volume_eps b : usable3 b -> kEpsilon < volume b.
Proof.
  intros [(A & _ & B & _ & _) C]. unfold volume, kEpsilon.
  assert (H : 0 < (blength b - (1 # 100)) * (bwidth b - (1 # 100))) by (apply Qmult_lt_0_compat; lra).
  assert (G : 1 # 10000 < blength b * bwidth b) by lra.
  assert (0 < (blength b * bwidth b - (1 # 10000)) * (bheight b - (1 # 100))) by (apply Qmult_lt_0_compat; lra). lra.
Qed.

Lemma to_aabox_proper b : usable b -> proper (to_aabox b).
Proof. intros (A & _ & B & _ & _). unfold proper, to_aabox. cbn [hx hy carrier QK]. split; lra. Qed.

Lemma common_length_bounds lo1 hi1 lo2 hi2 : lo1 <= hi1 -> lo2 <= hi2 ->
  0 <= common_length lo1 hi1 lo2 hi2 /\ common_length lo1 hi1 lo2 hi2 <= hi1 - lo1 /\ common_length lo1 hi1 lo2 hi2 <= hi2 - lo2.
Proof. intros. unfold common_length. dcase; repeat split; lra. Qed.
Lemma common_length_pos lo1 hi1 lo2 hi2 : lo1 < hi1 -> lo2 < hi2 ->
  0 < common_length lo1 hi1 lo2 hi2 <-> exists x, (lo1 < x /\ x < hi1) /\ (lo2 < x /\ x < hi2).
Proof.
  intros H1 H2. split.
  - intros H. unfold common_length in H.
    exists (((if Qlt_le_dec hi1 hi2 then hi1 else hi2) + (if Qlt_le_dec lo1 lo2 then lo2 else lo1)) / 2).
    revert H. dcase; intros H; (split; split; [apply Qlt_shift_div_l|apply Qlt_shift_div_r|apply Qlt_shift_div_l|apply Qlt_shift_div_r]; lra).
  - intros (x & [A B] & [C D]). unfold common_length. dcase; lra.
Qed.
Lemma common_length_full lo1 hi1 lo2 hi2 : lo1 < hi1 -> lo2 < hi2 ->
  common_length lo1 hi1 lo2 hi2 == hi1 - lo1 -> common_length lo1 hi1 lo2 hi2 == hi2 - lo2 -> lo1 == lo2 /\ hi1 == hi2.
Proof. intros H1 H2. unfold common_length. dcase; intros; split; lra. Qed.
Lemma common_length_same lo hi : lo <= hi -> common_length lo hi lo hi == hi - lo.
Proof. intros H1. unfold common_length. dcase; lra. Qed.

Global Instance common_length_comp : Proper (Qeq ==> Qeq ==> Qeq ==> Qeq ==> Qeq) common_length.
Proof. intros a a' Ha b b' Hb c c' Hc d d' Hd. unfold common_length. dcase; lra. Qed.

Lemma common_area_rect a b : common_area (to_aabox a) (to_aabox b) == rect_common a b.
Proof.
  unfold common_area, rect_common, to_aabox. cbn [cx cy hx hy carrier QK].
  apply Qmult_comp; apply common_length_comp; field.
Qed.

Lemma half_lt c l : 1 # 100 < l -> c - l / 2 < c + l / 2.
Proof. intros H. assert (l / 2 + l / 2 == l) by field. lra. Qed.
Lemma half_sum c l : (c + l / 2) - (c - l / 2) == l.
Proof. field. Qed.

Lemma rect_common_bounds a b : usable a -> usable b ->
  0 <= rect_common a b /\ rect_common a b <= area a /\ rect_common a b <= area b.
Proof.
  intros (A1 & _ & A2 & _ & _) (B1 & _ & B2 & _ & _). unfold rect_common, area.
  pose proof (half_lt (center_x a) _ A1) as X1. pose proof (half_lt (center_x b) _ B1) as X2.
  pose proof (half_lt (center_y a) _ A2) as Y1. pose proof (half_lt (center_y b) _ B2) as Y2.
  destruct (common_length_bounds _ _ _ _ (Qlt_le_weak _ _ X1) (Qlt_le_weak _ _ X2)) as (P1 & P2 & P3).
  destruct (common_length_bounds _ _ _ _ (Qlt_le_weak _ _ Y1) (Qlt_le_weak _ _ Y2)) as (R1 & R2 & R3).
  rewrite half_sum in P2, P3, R2, R3.
  set (u := common_length (center_x a - _) _ _ _) in *. set (v := common_length (center_y a - _) _ _ _) in *.
  split; [apply Qmult_le_0_compat; assumption|]. split; apply Qmult_le_compat_nonneg; split; assumption.
Qed.
Lemma rect_common_sym a b : rect_common a b == rect_common b a.
Proof. unfold rect_common. rewrite common_length_sym. apply Qmult_comp; [reflexivity|]. apply common_length_sym. Qed.
Lemma rect_common_zero a b : usable a -> usable b ->
  rect_common a b == 0 <-> ~ exists x y, in_open_rect a x y /\ in_open_rect b x y.
Proof.
  intros (A1 & _ & A2 & _ & _) (B1 & _ & B2 & _ & _). unfold rect_common.
  pose proof (half_lt (center_x a) _ A1) as X1. pose proof (half_lt (center_x b) _ B1) as X2.
  pose proof (half_lt (center_y a) _ A2) as Y1. pose proof (half_lt (center_y b) _ B2) as Y2.
  pose proof (common_length_pos _ _ _ _ X1 X2) as PX. pose proof (common_length_pos _ _ _ _ Y1 Y2) as PY.
  destruct (common_length_bounds _ _ _ _ (Qlt_le_weak _ _ X1) (Qlt_le_weak _ _ X2)) as (P1 & _ & _).
  destruct (common_length_bounds _ _ _ _ (Qlt_le_weak _ _ Y1) (Qlt_le_weak _ _ Y2)) as (R1 & _ & _).
  set (u := common_length (center_x a - _) _ _ _) in *. set (v := common_length (center_y a - _) _ _ _) in *.
  unfold in_open_rect. split.
  - intros Z (x & y & (I1 & I2 & I3 & I4) & (J1 & J2 & J3 & J4)).
    assert (0 < u) by (apply PX; exists x; repeat split; assumption).
    assert (0 < v) by (apply PY; exists y; repeat split; assumption).
    pose proof (Qmult_lt_0_compat _ _ H H0). lra.
  - intros N. destruct (Qlt_le_dec 0 u) as [U|U].
    + destruct (Qlt_le_dec 0 v) as [V|V].
      * exfalso. apply N. apply PX in U. apply PY in V. destruct U as (x & [? ?] & [? ?]), V as (y & [? ?] & [? ?]).
        exists x, y. repeat split; assumption.
      * assert (v == 0) as -> by lra. ring.
    + assert (u == 0) as -> by lra. ring.
Qed.

Lemma mult_le_strict (u v a b : Q) : 0 <= u -> u <= a -> 0 <= v -> v <= b -> 0 < a -> 0 < b -> u * v == a * b -> u == a /\ v == b.
Proof.
  intros. destruct (Qlt_le_dec u a) as [L|L].
  - exfalso. assert (u * v <= u * b) by (apply Qmult_le_compat_nonneg; split; try assumption; lra).
    assert (u * b < a * b) by (apply Qmult_lt_compat_r; assumption). lra.
  - assert (E : u == a) by lra. split; [exact E|]. rewrite E in H5. apply Qmult_inj_l in H5; [exact H5|lra].
Qed.

Lemma rect_common_full a b : usable a -> usable b ->
  (rect_common a b == area a /\ rect_common a b == area b) <-> (forall x y, in_rect a x y <-> in_rect b x y).
Proof.
  intros (A1 & _ & A2 & _ & _) (B1 & _ & B2 & _ & _). unfold rect_common, area.
  pose proof (half_lt (center_x a) _ A1) as X1. pose proof (half_lt (center_x b) _ B1) as X2.
  pose proof (half_lt (center_y a) _ A2) as Y1. pose proof (half_lt (center_y b) _ B2) as Y2.
  destruct (common_length_bounds _ _ _ _ (Qlt_le_weak _ _ X1) (Qlt_le_weak _ _ X2)) as (P1 & P2 & P3).
  destruct (common_length_bounds _ _ _ _ (Qlt_le_weak _ _ Y1) (Qlt_le_weak _ _ Y2)) as (R1 & R2 & R3).
  rewrite half_sum in P2, P3, R2, R3. split.
  - intros [E1 E2].
    apply mult_le_strict in E1; [|assumption|assumption|assumption|assumption|lra|lra].
    apply mult_le_strict in E2; [|assumption|assumption|assumption|assumption|lra|lra].
    destruct E1 as [E1 E1'], E2 as [E2 E2'].
    destruct (common_length_full _ _ _ _ X1 X2) as [U1 U2];
      [rewrite half_sum; exact E1|rewrite half_sum; exact E2|].
    destruct (common_length_full _ _ _ _ Y1 Y2) as [V1 V2];
      [rewrite half_sum; exact E1'|rewrite half_sum; exact E2'|].
    intros x y. unfold in_rect. rewrite U1, U2, V1, V2. reflexivity.
  - intros S.
    pose proof (S (center_x a - blength a / 2) (center_y a - bwidth a / 2)) as S1.
    pose proof (S (center_x a + blength a / 2) (center_y a + bwidth a / 2)) as S2.
    pose proof (S (center_x b - blength b / 2) (center_y b - bwidth b / 2)) as S3.
    pose proof (S (center_x b + blength b / 2) (center_y b + bwidth b / 2)) as S4.
    unfold in_rect in S1, S2, S3, S4.
    destruct (proj1 S1) as (a1 & a2 & a3 & a4); [repeat split; lra|].
    destruct (proj1 S2) as (b1 & b2 & b3 & b4); [repeat split; lra|].
    destruct (proj2 S3) as (c1 & c2 & c3 & c4); [repeat split; lra|].
    destruct (proj2 S4) as (d1 & d2 & d3 & d4); [repeat split; lra|].
    assert (U1 : center_x a - blength a / 2 == center_x b - blength b / 2) by lra.
    assert (U2 : center_x a + blength a / 2 == center_x b + blength b / 2) by lra.
    assert (V1 : center_y a - bwidth a / 2 == center_y b - bwidth b / 2) by lra.
    assert (V2 : center_y a + bwidth a / 2 == center_y b + bwidth b / 2) by lra.
    rewrite U1, U2, V1, V2, !common_length_same by lra. rewrite !half_sum.
    pose proof (half_sum (center_x a) (blength a)) as W1. pose proof (half_sum (center_y a) (bwidth a)) as W2.
    rewrite U1, U2, half_sum in W1. rewrite V1, V2, half_sum in W2. rewrite <- W1, <- W2. split; reflexivity.
Qed.

Global Instance over_union_comp : Proper (Qeq ==> Qeq ==> Qeq ==> Qeq) over_union.
Proof. intros a a' Ha b b' Hb c c' Hc. unfold over_union. rewrite Ha, Hb, Hc. reflexivity. Qed.

Section Poly.
Variable poly : lbox -> lbox -> Q.

Lemma not_usable_zero a b t : ~ usable a \/ ~ usable b -> t <> TYPE_UNKNOWN -> compute_iou poly a b t = Ok 0.
Proof.
  rewrite !usable_iff. intros H T. unfold compute_iou. destruct (huge a) eqn:Ha; [reflexivity|]. destruct (huge b) eqn:Hb; [reflexivity|].
  cbn [orb].
  assert (Ht : tiny2 a = true \/ tiny2 b = true).
  { destruct (tiny2 a) eqn:Ea; [left; reflexivity|]. destruct (tiny2 b) eqn:Eb; [right; reflexivity|]. exfalso. intuition congruence. }
  destruct t; [congruence| | |].
  - unfold compute_iou_3d. destruct Ht as [-> | ->]; [reflexivity|]. rewrite !Bool.orb_true_r. reflexivity.
  - unfold compute_iou_2d. destruct Ht as [-> | ->]; [reflexivity|]. rewrite !Bool.orb_true_r. reflexivity.
  - unfold compute_iou_aa_2d. destruct Ht as [-> | ->]; [reflexivity|]. rewrite !Bool.orb_true_r. reflexivity.
Qed.

Lemma aa_usable a b : usable a -> usable b ->
  exists v, compute_iou poly a b TYPE_AA_2D = Ok v /\ v == over_union (rect_common a b) (area a) (area b) /\
    0 <= v /\ v <= 1 /\ (v == 0 <-> rect_common a b == 0) /\ (v == 1 <-> rect_common a b == area a /\ rect_common a b == area b).
Proof.
  intros Ua Ub. pose proof (proj1 (usable_iff a) Ua) as [Ha Ta]. pose proof (proj1 (usable_iff b) Ub) as [Hb Tb].
  unfold compute_iou. rewrite Ha, Hb. cbn [orb]. unfold compute_iou_aa_2d. rewrite Ta, Tb. cbn [orb].
  pose proof (intersection_area_q (to_aabox a) (to_aabox b) (to_aabox_proper a Ua) (to_aabox_proper b Ub)) as E.
  rewrite common_area_rect in E. destruct (rect_common_bounds a b Ua Ub) as (B0 & B1 & B2).
  fold (area a) (area b). change (carrier QK) with Q in E.
  destruct (ratio_ok (intersection_area (to_aabox a) (to_aabox b)) (area a) (area b)) as (v & Ev & V & V0 & V1 & Z & O).
  - rewrite E. exact B0.
  - rewrite E. exact B1.
  - rewrite E. exact B2.
  - apply area_eps. exact Ua.
  - exists v. split; [exact Ev|]. split; [rewrite V, E; reflexivity|]. split; [exact V0|]. split; [exact V1|].
    rewrite Z, O, E. split; reflexivity.
Qed.

Theorem aa_value a b :
  (usable a -> usable b -> exists v, compute_iou poly a b TYPE_AA_2D = Ok v /\ v == over_union (rect_common a b) (area a) (area b)) /\
  (~ usable a \/ ~ usable b -> compute_iou poly a b TYPE_AA_2D = Ok 0).
Proof.
  split.
  - intros Ua Ub. destruct (aa_usable a b Ua Ub) as (v & E & V & _). exists v. split; assumption.
  - intros H. apply not_usable_zero; [exact H|discriminate].
Qed.

Theorem aa_laws a b : exists v w, compute_iou poly a b TYPE_AA_2D = Ok v /\ compute_iou poly b a TYPE_AA_2D = Ok w /\
  v == w /\ 0 <= v /\ v <= 1 /\
  (v == 0 <-> ~ usable a \/ ~ usable b \/ ~ exists x y, in_open_rect a x y /\ in_open_rect b x y) /\
  (v == 1 <-> usable a /\ usable b /\ forall x y, in_rect a x y <-> in_rect b x y).
Proof.
  destruct (usable_dec a) as [Ua|Ua]; [destruct (usable_dec b) as [Ub|Ub]|].
  - destruct (aa_usable a b Ua Ub) as (v & E & V & V0 & V1 & Z & O).
    destruct (aa_usable b a Ub Ua) as (w & E' & V' & _).
    exists v, w. split; [exact E|]. split; [exact E'|]. split.
    { rewrite V, V', rect_common_sym. unfold over_union. apply Qmult_comp; [reflexivity|]. apply Qinv_comp. ring. }
    split; [exact V0|]. split; [exact V1|]. split.
    + rewrite Z, (rect_common_zero a b Ua Ub). tauto.
    + rewrite O, (rect_common_full a b Ua Ub). tauto.
  - exists 0, 0. rewrite !not_usable_zero by (tauto || discriminate). split; [reflexivity|]. split; [reflexivity|].
    split; [reflexivity|]. split; [lra|]. split; [lra|]. split; [split; [tauto|reflexivity]|split; [lra|tauto]].
  - exists 0, 0. rewrite !not_usable_zero by (tauto || discriminate). split; [reflexivity|]. split; [reflexivity|].
    split; [reflexivity|]. split; [lra|]. split; [lra|]. split; [split; [tauto|reflexivity]|split; [lra|tauto]].
Qed.

(** ** Rotated boxes *)
Hypothesis contract : area_contract poly.

Lemma usable_2d a b : usable a -> usable b ->
  exists v, compute_iou poly a b TYPE_2D = Ok v /\ v == over_union (poly a b) (area a) (area b) /\
    0 <= v /\ v <= 1 /\ (v == 0 <-> poly a b == 0) /\ (v == 1 <-> poly a b == area a /\ poly a b == area b).
Proof.
  intros Ua Ub. pose proof (proj1 (usable_iff a) Ua) as [Ha Ta]. pose proof (proj1 (usable_iff b) Ub) as [Hb Tb].
  unfold compute_iou. rewrite Ha, Hb. cbn [orb]. unfold compute_iou_2d. rewrite Ta, Tb. cbn [orb].
  destruct (contract a b Ua Ub) as (B0 & B1 & B2 & _). fold (area a) (area b).
  apply ratio_ok; try assumption. apply area_eps. exact Ua.
Qed.

Theorem laws_2d a b : exists v w, compute_iou poly a b TYPE_2D = Ok v /\ compute_iou poly b a TYPE_2D = Ok w /\
  v == w /\ 0 <= v /\ v <= 1 /\
  (usable a -> usable b -> v == over_union (poly a b) (area a) (area b)) /\
  (v == 0 <-> ~ usable a \/ ~ usable b \/ poly a b == 0) /\
  (v == 1 <-> usable a /\ usable b /\ poly a b == area a /\ poly a b == area b).
Proof.
  destruct (usable_dec a) as [Ua|Ua]; [destruct (usable_dec b) as [Ub|Ub]|].
  - destruct (usable_2d a b Ua Ub) as (v & E & V & V0 & V1 & Z & O).
    destruct (usable_2d b a Ub Ua) as (w & E' & V' & _). destruct (contract a b Ua Ub) as (_ & _ & _ & Sy).
    exists v, w. split; [exact E|]. split; [exact E'|]. split.
    { rewrite V, V', Sy. unfold over_union. apply Qmult_comp; [reflexivity|]. apply Qinv_comp. ring. }
    split; [exact V0|]. split; [exact V1|]. split; [intros _ _; exact V|]. split; [rewrite Z|rewrite O]; tauto.
  - exists 0, 0. rewrite !not_usable_zero by (tauto || discriminate). split; [reflexivity|]. split; [reflexivity|].
    split; [reflexivity|]. split; [lra|]. split; [lra|]. split; [tauto|]. split; [split; [tauto|reflexivity]|split; [lra|tauto]].
  - exists 0, 0. rewrite !not_usable_zero by (tauto || discriminate). split; [reflexivity|]. split; [reflexivity|].
    split; [reflexivity|]. split; [lra|]. split; [lra|]. split; [tauto|]. split; [split; [tauto|reflexivity]|split; [lra|tauto]].
Qed.

Lemma not_usable3_zero a b : ~ usable3 a \/ ~ usable3 b -> compute_iou poly a b TYPE_3D = Ok 0.
Proof.
  rewrite !usable3_iff. intros H. unfold compute_iou. destruct (huge a) eqn:Ha; [reflexivity|]. destruct (huge b) eqn:Hb; [reflexivity|].
  cbn [orb]. unfold compute_iou_3d.
  destruct (tiny2 a) eqn:Ea; [reflexivity|]. destruct (Qle_bool (bheight a) kMinBoxDim) eqn:Za; [reflexivity|].
  destruct (tiny2 b) eqn:Eb; [reflexivity|]. destruct (Qle_bool (bheight b) kMinBoxDim) eqn:Zb; [reflexivity|].
  exfalso. intuition congruence.
Qed.

Lemma usable_3d a b : usable3 a -> usable3 b ->
  exists v, compute_iou poly a b TYPE_3D = Ok v /\ v == over_union (poly a b * z_common a b) (volume a) (volume b) /\
    0 <= v /\ v <= 1 /\ (v == 0 <-> poly a b * z_common a b == 0) /\
    (v == 1 <-> poly a b * z_common a b == volume a /\ poly a b * z_common a b == volume b).
Proof.
  intros Ua Ub. pose proof (proj1 (usable3_iff a) Ua) as (Ha & Ta & Za). pose proof (proj1 (usable3_iff b) Ub) as (Hb & Tb & Zb).
  unfold compute_iou. rewrite Ha, Hb. cbn [orb]. unfold compute_iou_3d. rewrite Ta, Tb, Za, Zb. cbn [orb].
  destruct Ua as [Ua Ka], Ub as [Ub Kb].
  destruct (contract a b Ua Ub) as (B0 & B1 & B2 & _). unfold closed_ranges_overlap.
  set (la := center_z a - bheight a * (1 # 2)). set (ra := center_z a + bheight a * (1 # 2)).
  set (lb := center_z b - bheight b * (1 # 2)). set (rb := center_z b + bheight b * (1 # 2)).
  assert (La : la <= ra) by (unfold la, ra; lra). assert (Lb : lb <= rb) by (unfold lb, rb; lra).
  rewrite (proj2 (qle_b la ra) La), (proj2 (qle_b lb rb) Lb). cbn [negb bind].
  assert (EZ : z_common a b == common_length la ra lb rb).
  { unfold z_common, la, ra, lb, rb. apply common_length_comp; field. }
  assert (Hab : ra - la == bheight a) by (unfold ra, la; ring).
  assert (Hbb : rb - lb == bheight b) by (unfold rb, lb; ring).
  destruct (common_length_bounds la ra lb rb La Lb) as (C0 & C1 & C2).
  clearbody la ra lb rb.
  assert (CL : forall i, i == poly a b * common_length la ra lb rb ->
    exists v, ratio i (volume a) (volume b) = Ok v /\ v == over_union (poly a b * z_common a b) (volume a) (volume b) /\
    0 <= v /\ v <= 1 /\ (v == 0 <-> poly a b * z_common a b == 0) /\
    (v == 1 <-> poly a b * z_common a b == volume a /\ poly a b * z_common a b == volume b)).
  { intros i Ei. destruct (ratio_ok i (volume a) (volume b)) as (v & Ev & V & V0 & V1 & Zv & O).
    - rewrite Ei. apply Qmult_le_0_compat; assumption.
    - rewrite Ei. unfold volume. fold (area a). apply Qmult_le_compat_nonneg; split; try assumption. rewrite <- Hab. exact C1.
    - rewrite Ei. unfold volume. fold (area b). apply Qmult_le_compat_nonneg; split; try assumption. rewrite <- Hbb. exact C2.
    - apply volume_eps. split; assumption.
    - exists v. rewrite Ei in *. rewrite EZ. repeat split; try tauto; assumption. }
  destruct (qmax_spec la lb) as [[M1 M2]|[M1 M2]]; destruct (qmin_spec ra rb) as [[N1 N2]|[N1 N2]];
  destruct (Qle_bool (qmax la lb) (qmin ra rb)) eqn:E.
  all: try (apply CL; apply Qmult_comp; [reflexivity|]; rewrite M2, N2; apply qle_b in E; rewrite M2, N2 in E;
            unfold common_length; dcase; lra).
  all: apply qle_nb in E; rewrite M2, N2 in E; exists 0;
       assert (Z0 : poly a b * z_common a b == 0) by
         (rewrite EZ; assert (common_length la ra lb rb == 0) as -> by (unfold common_length; dcase; lra); ring);
       pose proof (volume_eps a (conj Ua Ka)) as PV; unfold kEpsilon in PV;
       (split; [reflexivity|]); (split; [rewrite Z0; unfold over_union, Qdiv; ring|]);
       (split; [lra|]); (split; [lra|]); rewrite Z0; (split; [split; reflexivity|]); split; [lra|intros [? ?]; lra].
Qed.

Lemma z_common_sym a b : z_common a b == z_common b a.
Proof. apply common_length_sym. Qed.

Theorem laws_3d a b : exists v w, compute_iou poly a b TYPE_3D = Ok v /\ compute_iou poly b a TYPE_3D = Ok w /\
  v == w /\ 0 <= v /\ v <= 1 /\
  (usable3 a -> usable3 b -> v == over_union (poly a b * z_common a b) (volume a) (volume b)) /\
  (v == 0 <-> ~ usable3 a \/ ~ usable3 b \/ poly a b * z_common a b == 0) /\
  (v == 1 <-> usable3 a /\ usable3 b /\ poly a b * z_common a b == volume a /\ poly a b * z_common a b == volume b).
Proof.
  destruct (usable3_dec a) as [Ua|Ua]; [destruct (usable3_dec b) as [Ub|Ub]|].
  - destruct (usable_3d a b Ua Ub) as (v & E & V & V0 & V1 & Z & O).
    destruct (usable_3d b a Ub Ua) as (w & E' & V' & _). destruct (contract a b (proj1 Ua) (proj1 Ub)) as (_ & _ & _ & Sy).
    exists v, w. split; [exact E|]. split; [exact E'|]. split.
    { rewrite V, V', Sy, z_common_sym. unfold over_union. apply Qmult_comp; [reflexivity|]. apply Qinv_comp. ring. }
    split; [exact V0|]. split; [exact V1|]. split; [intros _ _; exact V|]. split; [rewrite Z|rewrite O]; tauto.
  - exists 0, 0. rewrite !not_usable3_zero by tauto. split; [reflexivity|]. split; [reflexivity|].
    split; [reflexivity|]. split; [lra|]. split; [lra|]. split; [tauto|]. split; [split; [tauto|reflexivity]|split; [lra|tauto]].
  - exists 0, 0. rewrite !not_usable3_zero by tauto. split; [reflexivity|]. split; [reflexivity|].
    split; [reflexivity|]. split; [lra|]. split; [lra|]. split; [tauto|]. split; [split; [tauto|reflexivity]|split; [lra|tauto]].
Qed.
End Poly.
