From Coq Require Import Qround Qabs Lqa.
From Verif Require Import Base ApModel ApProofs CutoffModel CutoffProofs AngleModel AngleSpec.
Open Scope Q_scope.

Lemma qtrunc_nonneg x : 0 <= x -> inject_Z (qtrunc x) <= x < inject_Z (qtrunc x) + 1.
Proof.
  intros H. unfold qtrunc. rewrite (proj2 (Qle_bool_iff _ _) H). split; [apply Qfloor_le|].
  pose proof (Qlt_floor x) as Hf. rewrite inject_Z_plus in Hf. exact Hf.
Qed.
Lemma qtrunc_neg x : x < 0 -> x <= inject_Z (qtrunc x) < x + 1.
Proof.
  intros H. unfold qtrunc. rewrite (proj2 (qle_false _ _) H). split; [apply Qle_ceiling|].
  pose proof (Qceiling_lt x) as Hf. unfold Z.sub in Hf. rewrite inject_Z_plus, inject_Z_opp in Hf. change (inject_Z 1) with 1 in Hf. lra.
Qed.
Lemma mult_div_bounds t x y : 0 < y -> (t <= x * (1 / y) <-> t * y <= x).
Proof.
  intros Hy. split; intros H.
  - assert (t * y <= x * (1 / y) * y) by (apply Qmult_le_compat_r; [exact H|lra]). setoid_replace (x * (1 / y) * y) with x in H0 by (field; lra). exact H0.
  - assert (E : x * (1 / y) == x / y) by (field; lra). rewrite E. now apply Qle_shift_div_l.
Qed.
Lemma mult_div_bounds' t x y : 0 < y -> (x * (1 / y) <= t <-> x <= t * y).
Proof.
  intros Hy. split; intros H.
  - assert (x * (1 / y) * y <= t * y) by (apply Qmult_le_compat_r; [exact H|lra]). setoid_replace (x * (1 / y) * y) with x in H0 by (field; lra). exact H0.
  - assert (E : x * (1 / y) == x / y) by (field; lra). rewrite E. now apply Qle_shift_div_r.
Qed.
Lemma mult_div_lt t x y : 0 < y -> x * (1 / y) < t -> x < t * y.
Proof. intros Hy H. apply Qnot_le_lt. intros Hc. apply (mult_div_bounds t x y Hy) in Hc. lra. Qed.
Lemma mult_div_lt' t x y : 0 < y -> t < x * (1 / y) -> t * y < x.
Proof. intros Hy H. apply Qnot_le_lt. intros Hc. apply (mult_div_bounds' t x y Hy) in Hc. lra. Qed.

Theorem positive_modulo_spec x y : 0 < y -> 0 <= positive_modulo x y < y /\ congruent y (positive_modulo x y) x.
Proof.
  intros Hy. unfold positive_modulo. cbv zeta. set (t := qtrunc (x * (1 / y))).
  destruct (Qlt_le_dec (x * (1 / y)) 0) as [Hn|Hp].
  - destruct (qtrunc_neg _ Hn) as [A B]. fold t in A, B.
    apply (mult_div_bounds' (inject_Z t) x y Hy) in A.
    assert (B' : (inject_Z t - 1) * y < x) by (apply mult_div_lt'; [exact Hy|lra]).
    assert (E : (inject_Z t - 1) * y == inject_Z t * y - y) by ring. rewrite E in B'.
    destruct (Qle_bool 0 (x - inject_Z t * y)) eqn:E1.
    + apply Qle_bool_iff in E1. split; [lra|]. exists (- t)%Z. rewrite inject_Z_opp. ring.
    + apply qle_false in E1. destruct (Qle_bool y (y + (x - inject_Z t * y))) eqn:E2; [apply Qle_bool_iff in E2; lra|].
      split; [lra|]. exists (1 - t)%Z. unfold Z.sub. rewrite inject_Z_plus, inject_Z_opp. change (inject_Z 1) with 1. ring.
  - destruct (qtrunc_nonneg _ Hp) as [A B]. fold t in A, B.
    apply (mult_div_bounds (inject_Z t) x y Hy) in A. apply (mult_div_lt _ _ _ Hy) in B.
    assert (E : (inject_Z t + 1) * y == inject_Z t * y + y) by ring. rewrite E in B.
    assert (E1 : Qle_bool 0 (x - inject_Z t * y) = true) by (apply Qle_bool_iff; lra). rewrite E1.
    split; [lra|]. exists (- t)%Z. rewrite inject_Z_opp. ring.
Qed.
Lemma congruent_unique p a b lo : 0 < p -> congruent p a b -> lo <= a < lo + p -> lo <= b < lo + p -> a == b.
Proof.
  intros Hp (k & E) Ha Hb. destruct (Z.lt_trichotomy k 0) as [H|[->|H]].
  - assert (inject_Z k * p <= (-(1)) * p).
    { apply Qmult_le_compat_r; [|lra]. change (-(1)) with (inject_Z (-1)). rewrite <- Zle_Qle. lia. } lra.
  - change (inject_Z 0) with 0 in E. lra.
  - assert (1 * p <= inject_Z k * p).
    { apply Qmult_le_compat_r; [|lra]. change 1 with (inject_Z 1). rewrite <- Zle_Qle. lia. } lra.
Qed.
Lemma congruent_sym p a b : congruent p a b -> congruent p b a.
Proof. intros (k & E). exists (- k)%Z. rewrite inject_Z_opp. lra. Qed.
Lemma congruent_trans p a b c : congruent p a b -> congruent p b c -> congruent p a c.
Proof. intros (k & E) (j & F). exists (k + j)%Z. rewrite inject_Z_plus, E, F. ring. Qed.

Theorem wrap_spec lo hi v : lo < hi -> lo <= wrap_to_range lo hi v < hi /\ congruent (hi - lo) (wrap_to_range lo hi v) v.
Proof.
  intros H. unfold wrap_to_range. assert (Hy : 0 < hi - lo) by lra. destruct (positive_modulo_spec (v - lo) (hi - lo) Hy) as [A (k & E)].
  split; [lra|]. exists k. rewrite E. ring.
Qed.
Lemma wrap_congruent lo hi v w : lo < hi -> congruent (hi - lo) v w -> wrap_to_range lo hi v == wrap_to_range lo hi w.
Proof.
  intros H C. destruct (wrap_spec lo hi v H) as [A1 A2]. destruct (wrap_spec lo hi w H) as [B1 B2].
  apply (congruent_unique (hi - lo) _ _ lo); [lra| |lra|lra].
  apply (congruent_trans _ _ _ _ A2). apply (congruent_trans _ _ _ _ C). now apply congruent_sym.
Qed.

Lemma qabs_cases x : (0 <= x /\ Qabs x == x) \/ (x < 0 /\ Qabs x == - x).
Proof.
  destruct (Qlt_le_dec x 0) as [H|H]; [right|left]; split; try exact H; [apply Qabs_neg; lra|now apply Qabs_pos].
Qed.
(** Difference of two representatives in [-pi, pi), folded to [0, pi], is the circular distance. *)
Lemma folded_distance pi a b : 0 < pi -> - pi <= a < pi -> - pi <= b < pi ->
  let d := Qabs (a - b) in
  circular_distance (2 * pi) a b (if Qlt_bool pi d then 2 * pi - d else d).
Proof.
  intros Hp Ha Hb. cbv zeta. set (d := Qabs (a - b)).
  assert (Hd : 0 <= d /\ d < 2 * pi) by (destruct (qabs_cases (a - b)) as [[? E]|[? E]]; unfold d; rewrite E; lra).
  destruct (Qlt_bool pi d) eqn:E.
  - apply qlt_iff in E. split.
    + destruct (qabs_cases (a - b)) as [[H Ed]|[H Ed]]; fold d in Ed.
      * exists (-1)%Z. change (inject_Z (-1)) with (-(1)). destruct (qabs_cases (a - b + -(1) * (2 * pi))) as [[? F]|[? F]]; rewrite F; lra.
      * exists 1%Z. change (inject_Z 1) with 1. destruct (qabs_cases (a - b + 1 * (2 * pi))) as [[? F]|[? F]]; rewrite F; lra.
    + intros k. assert (Hk : (k <= -1 \/ k = 0 \/ 1 <= k)%Z) by lia. destruct Hk as [Hk|[->|Hk]].
      * assert (inject_Z k * (2 * pi) <= (-(1)) * (2 * pi)).
        { apply Qmult_le_compat_r; [|lra]. change (-(1)) with (inject_Z (-1)). rewrite <- Zle_Qle. lia. }
        destruct (qabs_cases (a - b)) as [[H1 Ed]|[H1 Ed]]; fold d in Ed;
          destruct (qabs_cases (a - b + inject_Z k * (2 * pi))) as [[? F]|[? F]]; rewrite F; lra.
      * change (inject_Z 0) with 0. assert (F : Qabs (a - b + 0 * (2 * pi)) == d) by (unfold d; apply Qabs_wd; ring). rewrite F. lra.
      * assert (1 * (2 * pi) <= inject_Z k * (2 * pi)).
        { apply Qmult_le_compat_r; [|lra]. change 1 with (inject_Z 1). rewrite <- Zle_Qle. lia. }
        destruct (qabs_cases (a - b)) as [[H1 Ed]|[H1 Ed]]; fold d in Ed;
          destruct (qabs_cases (a - b + inject_Z k * (2 * pi))) as [[? F]|[? F]]; rewrite F; lra.
  - apply qlt_false in E. split.
    + exists 0%Z. change (inject_Z 0) with 0. unfold d. apply Qabs_wd. ring.
    + intros k. assert (Hk : (k <= -1 \/ k = 0 \/ 1 <= k)%Z) by lia. destruct Hk as [Hk|[->|Hk]].
      * assert (inject_Z k * (2 * pi) <= (-(1)) * (2 * pi)).
        { apply Qmult_le_compat_r; [|lra]. change (-(1)) with (inject_Z (-1)). rewrite <- Zle_Qle. lia. }
        destruct (qabs_cases (a - b)) as [[H1 Ed]|[H1 Ed]]; fold d in Ed;
          destruct (qabs_cases (a - b + inject_Z k * (2 * pi))) as [[? F]|[? F]]; rewrite F; lra.
      * change (inject_Z 0) with 0. assert (F : Qabs (a - b + 0 * (2 * pi)) == d) by (unfold d; apply Qabs_wd; ring). rewrite F. lra.
      * assert (1 * (2 * pi) <= inject_Z k * (2 * pi)).
        { apply Qmult_le_compat_r; [|lra]. change 1 with (inject_Z 1). rewrite <- Zle_Qle. lia. }
        destruct (qabs_cases (a - b)) as [[H1 Ed]|[H1 Ed]]; fold d in Ed;
          destruct (qabs_cases (a - b + inject_Z k * (2 * pi))) as [[? F]|[? F]]; rewrite F; lra.
Qed.
Lemma circular_congruent p a b a' b' d : congruent p a a' -> congruent p b b' -> circular_distance p a b d -> circular_distance p a' b' d.
Proof.
  intros (i & Ea) (j & Eb) [(k & Ed) Hd]. split.
  - exists (k + i - j)%Z. rewrite Ed. apply Qabs_wd. rewrite Ea, Eb. unfold Z.sub. rewrite !inject_Z_plus, inject_Z_opp. ring.
  - intros k'. specialize (Hd (k' - i + j)%Z).
    assert (E : Qabs (a - b + inject_Z (k' - i + j) * p) == Qabs (a' - b' + inject_Z k' * p)).
    { apply Qabs_wd. rewrite Ea, Eb. unfold Z.sub. rewrite !inject_Z_plus, inject_Z_opp. ring. }
    rewrite E in Hd. exact Hd.
Qed.
Lemma circular_bound pi a b d : 0 < pi -> circular_distance (2 * pi) a b d -> 0 <= d <= pi.
Proof.
  intros Hp [(k & E) H]. split; [rewrite E; apply Qabs_nonneg|].
  pose proof (H k) as H0. pose proof (H (k + 1)%Z) as H1. pose proof (H (k - 1)%Z) as H2.
  unfold Z.sub in H2. rewrite inject_Z_plus in H1, H2. rewrite inject_Z_opp in H2. change (inject_Z 1) with 1 in H1, H2.
  set (x := a - b + inject_Z k * (2 * pi)) in *.
  assert (E1 : Qabs (a - b + (inject_Z k + 1) * (2 * pi)) == Qabs (x + 2 * pi)) by (apply Qabs_wd; unfold x; ring).
  assert (E2 : Qabs (a - b + (inject_Z k + -(1)) * (2 * pi)) == Qabs (x - 2 * pi)) by (apply Qabs_wd; unfold x; ring).
  rewrite E1 in H1. rewrite E2 in H2. clear E1 E2. clearbody x.
  destruct (qabs_cases x) as [[? F]|[? F]]; destruct (qabs_cases (x + 2 * pi)) as [[? F1]|[? F1]];
    destruct (qabs_cases (x - 2 * pi)) as [[? F2]|[? F2]]; lra.
Qed.
Lemma circular_unique p a b d d' : circular_distance p a b d -> circular_distance p a b d' -> d == d'.
Proof. intros [(k & E) H] [(k' & E') H']. specialize (H k'). specialize (H' k). rewrite <- E' in H. rewrite <- E in H'. lra. Qed.
Lemma normalize_spec pi x : 0 < pi -> - pi <= normalize_angle pi x < pi /\ congruent (2 * pi) (normalize_angle pi x) x.
Proof.
  intros H. unfold normalize_angle. destruct (wrap_spec (- pi) pi x ltac:(lra)) as [A (k & E)]. split; [exact A|]. exists k. rewrite E. ring.
Qed.
Theorem heading_value pi pd gt : 0 < pi ->
  exists d, circular_distance (2 * pi) pd gt d /\ 0 <= d <= pi /\ heading_accuracy pi pd gt == 1 - d / pi.
Proof.
  intros Hp. destruct (normalize_spec pi pd Hp) as [A1 A2]. destruct (normalize_spec pi gt Hp) as [B1 B2].
  pose proof (folded_distance pi _ _ Hp A1 B1) as C. cbv zeta in C. apply (circular_congruent _ _ _ _ _ _ A2 B2) in C.
  set (d := if Qlt_bool pi _ then _ else _) in C. exists d. split; [exact C|].
  pose proof (circular_bound _ _ _ _ Hp C) as Hd. split; [exact Hd|].
  unfold heading_accuracy. cbv zeta. fold d.
  assert (H1 : 0 <= 1 - d / pi <= 1).
  { assert (0 <= d / pi) by (apply Qle_shift_div_l; lra). assert (d / pi <= 1) by (apply Qle_shift_div_r; lra). lra. }
  destruct (Qlt_bool 0 (1 - d / pi)) eqn:E0; [apply qlt_iff in E0|apply qlt_false in E0].
  - destruct (Qlt_bool (1 - d / pi) 1) eqn:E; [reflexivity|]. apply qlt_false in E. lra.
  - change (Qlt_bool 0 1) with true. cbv iota. lra.
Qed.
Lemma circular_sym p a b d : circular_distance p a b d -> circular_distance p b a d.
Proof.
  intros [(k & E) H]. split.
  - exists (- k)%Z. rewrite E, <- Qabs_opp. apply Qabs_wd. rewrite inject_Z_opp. ring.
  - intros k'. specialize (H (- k')%Z). rewrite <- Qabs_opp in H.
    assert (E' : - (a - b + inject_Z (- k') * p) == b - a + inject_Z k' * p) by (rewrite inject_Z_opp; ring).
    rewrite (Qabs_wd _ _ E') in H. exact H.
Qed.
Lemma heading_congruent pi a b a' b' : 0 < pi -> congruent (2 * pi) a a' -> congruent (2 * pi) b b' ->
  heading_accuracy pi a b == heading_accuracy pi a' b'.
Proof.
  intros Hp Ha Hb. destruct (heading_value pi a b Hp) as (d & C & _ & E). destruct (heading_value pi a' b' Hp) as (d' & C' & _ & E').
  apply (circular_congruent _ _ _ _ _ _ Ha Hb) in C. rewrite E, E', (circular_unique _ _ _ _ _ C C'). reflexivity.
Qed.
Lemma heading_sym pi a b : 0 < pi -> heading_accuracy pi a b == heading_accuracy pi b a.
Proof.
  intros Hp. destruct (heading_value pi a b Hp) as (d & C & _ & E). destruct (heading_value pi b a Hp) as (d' & C' & _ & E').
  apply circular_sym in C. rewrite E, E', (circular_unique _ _ _ _ _ C C'). reflexivity.
Qed.
Lemma heading_one pi a b : 0 < pi -> (heading_accuracy pi a b == 1 <-> congruent (2 * pi) a b).
Proof.
  intros Hp. destruct (heading_value pi a b Hp) as (d & [(k & Ek) Hm] & _ & E). rewrite E. clear E.
  assert (Hq : 1 - d / pi == 1 <-> d == 0).
  { split; intros H; [|rewrite H; field; lra]. assert (H1 : d / pi == 0) by lra.
    assert (d == d / pi * pi) by (field; lra). rewrite H1 in H0. lra. }
  rewrite Hq. split.
  - intros Hd. exists (- k)%Z. rewrite inject_Z_opp. rewrite Hd in Ek. destruct (qabs_cases (a - b + inject_Z k * (2 * pi))) as [[? F]|[? F]]; lra.
  - intros (j & Ej). specialize (Hm (- j)%Z). assert (F : Qabs (a - b + inject_Z (- j) * (2 * pi)) == Qabs 0) by (apply Qabs_wd; rewrite inject_Z_opp; lra).
    rewrite F in Hm. change (Qabs 0) with 0 in Hm. assert (0 <= d) by (rewrite Ek; apply Qabs_nonneg). lra.
Qed.
Lemma heading_zero pi a b : 0 < pi -> (heading_accuracy pi a b == 0 <-> congruent (2 * pi) a (b + pi)).
Proof.
  intros Hp. destruct (heading_value pi a b Hp) as (d & C & Hb & E). rewrite E. clear E. pose proof C as [(k & Ek) Hm].
  assert (Hq : 1 - d / pi == 0 <-> d == pi).
  { split; intros H; [|rewrite H; field; lra]. assert (H1 : d / pi == 1) by lra.
    assert (d == d / pi * pi) by (field; lra). rewrite H1 in H0. lra. }
  rewrite Hq. split.
  - intros Hd. destruct (qabs_cases (a - b + inject_Z k * (2 * pi))) as [[? F]|[? F]].
    + exists (- k)%Z. rewrite inject_Z_opp. lra.
    + exists (- k - 1)%Z. unfold Z.sub. rewrite inject_Z_plus, !inject_Z_opp. change (inject_Z 1) with 1. lra.
  - intros (j & Ej). assert (G : a - b + inject_Z k * (2 * pi) == pi + inject_Z (j + k) * (2 * pi)) by (rewrite inject_Z_plus; lra).
    rewrite (Qabs_wd _ _ G) in Ek. assert (Hk : (j + k <= -1 \/ 0 <= j + k)%Z) by lia. destruct Hk as [Hk|Hk].
    + assert (inject_Z (j + k) * (2 * pi) <= (-(1)) * (2 * pi)).
      { apply Qmult_le_compat_r; [|lra]. change (-(1)) with (inject_Z (-1)). rewrite <- Zle_Qle. lia. }
      destruct (qabs_cases (pi + inject_Z (j + k) * (2 * pi))) as [[? F]|[? F]]; lra.
    + assert (0 * (2 * pi) <= inject_Z (j + k) * (2 * pi)).
      { apply Qmult_le_compat_r; [|lra]. change 0 with (inject_Z 0). rewrite <- Zle_Qle. lia. }
      destruct (qabs_cases (pi + inject_Z (j + k) * (2 * pi))) as [[? F]|[? F]]; lra.
Qed.

(** ** Integral types *)
Theorem int_modulo lo hi x y : (lo = - hi - 1 \/ lo = 0)%Z -> (0 < y)%Z -> (2 * y <= hi)%Z -> (lo <= x <= hi)%Z ->
  int_positive_modulo lo hi x y = Ok (x mod y)%Z.
Proof.
  intros Hlo Hy H2 Hx. unfold int_positive_modulo, chk.
  destruct (Z.leb_spec 0 x) as [Hp|Hn].
  - replace ((lo <=? y + y) && (y + y <=? hi))%Z with true by lia. cbn [bind].
    destruct (Z.ltb_spec x (y + y)); [destruct (Z.ltb_spec x y)|].
    + f_equal. symmetry. apply Z.mod_small. lia.
    + replace ((lo <=? x - y) && (x - y <=? hi))%Z with true by lia. f_equal. apply (Z.mod_unique_pos x y 1); lia.
    + f_equal. apply Z.rem_mod_nonneg; lia.
  - replace ((lo <=? - y) && (- y <=? hi))%Z with true by lia. cbn [bind].
    destruct (Z.leb_spec (- y) x).
    + replace ((lo <=? x + y) && (x + y <=? hi))%Z with true by lia. f_equal. apply (Z.mod_unique_pos x y (-1)); lia.
    + replace ((lo <=? x + 1) && (x + 1 <=? hi))%Z with true by lia. cbn [bind].
      replace ((lo <=? - (x + 1)) && (- (x + 1) <=? hi))%Z with true by lia. cbn [bind].
      rewrite Z.rem_mod_nonneg by lia. pose proof (Z.mod_pos_bound (- (x + 1)) y Hy) as Hm.
      pose proof (Z.div_mod (- (x + 1)) y ltac:(lia)) as Hd.
      set (r := ((- (x + 1)) mod y)%Z) in *. replace ((lo <=? y - r) && (y - r <=? hi))%Z with true by lia. cbn [bind].
      replace ((lo <=? y - r - 1) && (y - r - 1 <=? hi))%Z with true by lia. f_equal.
      apply (Z.mod_unique_pos x y (- ((- (x + 1)) / y) - 1)); [lia|]. nia.
Qed.
Lemma bound_spec lo hi v : (lo <= hi)%Z -> (lo <= bound_to_range lo hi v <= hi)%Z /\
  (forall w, lo <= w <= hi -> Z.abs (v - bound_to_range lo hi v) <= Z.abs (v - w))%Z.
Proof. unfold bound_to_range, zmin, zmax. intros H. split; [|intros w Hw]; destruct (Z.ltb_spec hi v); destruct (Z.ltb_spec lo hi); destruct (Z.ltb_spec lo v); lia. Qed.
