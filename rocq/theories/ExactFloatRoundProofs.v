(** Proofs about rounding of exact floating point numbers. *)
From Coq Require Import ZArith QArith Qabs Qpower Lqa Lia Bool.
From Verif Require Import Base ExactFloatModel ExactFloatSpec ExactFloatLib ExactFloatProofs ExactFloatOpsProofs ExactFloatCmpProofs.
Local Open Scope Z_scope.

(** ** Discarding low bits of an integer *)
Lemma split_bits m d : 0 <= m -> 0 < d ->
  let q := Z.shiftr m d in let r := m - q * 2 ^ d in
  0 <= q /\ 0 <= r < 2 ^ d /\ Z.testbit m d = Z.odd q /\
  Z.testbit m (d - 1) = (2 ^ (d - 1) <=? r) /\ (m mod 2 ^ d = r) /\
  (2 ^ (d - 1) <= r -> m mod 2 ^ (d - 1) = r - 2 ^ (d - 1)).
Proof.
  intros Hm Hd q r. assert (P : 0 < 2 ^ d) by (apply Z.pow_pos_nonneg; lia). assert (P1 : 0 < 2 ^ (d - 1)) by (apply Z.pow_pos_nonneg; lia).
  assert (E2 : 2 ^ d = 2 * 2 ^ (d - 1)) by (rewrite <- Z.pow_succ_r by lia; f_equal; lia).
  assert (Q : q = m / 2 ^ d) by (unfold q; apply Z.shiftr_div_pow2; lia).
  assert (R : m mod 2 ^ d = r) by (unfold r; rewrite Q, Z.mod_eq by lia; lia).
  assert (Rb : 0 <= r < 2 ^ d) by (rewrite <- R; apply Z.mod_pos_bound, P).
  assert (Qp : 0 <= q) by (rewrite Q; apply Z.div_pos; lia).
  assert (Em : m = 2 ^ (d - 1) * (2 * q) + r) by (unfold r; lia).
  split; [exact Qp|]. split; [exact Rb|]. split.
  { rewrite <- Z.bit0_odd. unfold q. rewrite Z.shiftr_spec by lia. f_equal. }
  split; [|split; [exact R|]].
  - assert (T : Z.testbit m (d - 1) = Z.odd (m / 2 ^ (d - 1))).
    { rewrite <- Z.bit0_odd, <- Z.shiftr_div_pow2 by lia. rewrite Z.shiftr_spec by lia. f_equal. }
    rewrite T. destruct (Z.leb_spec (2 ^ (d - 1)) r) as [L|L].
    + assert (D : m / 2 ^ (d - 1) = 2 * q + 1) by (symmetry; apply Z.div_unique with (r - 2 ^ (d - 1)); [left; lia|lia]).
      rewrite D, Z.odd_add_mul_2 || rewrite D. rewrite Z.odd_add, Z.odd_mul. reflexivity.
    + assert (D : m / 2 ^ (d - 1) = 2 * q) by (symmetry; apply Z.div_unique with r; [left; lia|lia]).
      rewrite D, Z.odd_mul. reflexivity.
  - intros L. symmetry. apply Z.mod_unique with (2 * q + 1); [left; lia|lia].
Qed.

Definition cut (mode : rounding_mode) (q r p : Z) : bool :=
  match mode with
  | kRoundTowardZero => false
  | kRoundTiesAwayFromZero => p <=? 2 * r
  | kRoundAwayFromZero => negb (r =? 0)
  | _ => (p <? 2 * r) || ((2 * r =? p) && Z.odd q)
  end.
Lemma increment_cut m d mode : 0 < m -> 0 < d ->
  increment m d mode = cut mode (Z.shiftr m d) (m - Z.shiftr m d * 2 ^ d) (2 ^ d).
Proof.
  intros Hm Hd. destruct (split_bits m d (Z.lt_le_incl _ _ Hm) Hd) as (Qp & Rb & T0 & T1 & R & R1).
  assert (E2 : 2 ^ d = 2 * 2 ^ (d - 1)) by (rewrite <- Z.pow_succ_r by lia; f_equal; lia).
  set (q := Z.shiftr m d) in *. set (r := m - q * 2 ^ d) in *.
  assert (LZ : (low_zero_bits m <? d) = negb (r =? 0)).
  { pose proof (low_zero_lt m d Hm (Z.lt_le_incl _ _ Hd)) as L. rewrite R in L. destruct (Z.eqb_spec r 0) as [E|E]; cbn [negb].
    - apply Z.ltb_ge. destruct (Z_lt_le_dec (low_zero_bits m) d) as [C|C]; [|exact C]. apply L in C. contradiction.
    - apply Z.ltb_lt, L, E. }
  assert (TE : Z.testbit m (d - 1) && (Z.testbit m d || (low_zero_bits m <? d - 1)) = (2 ^ d <? 2 * r) || ((2 * r =? 2 ^ d) && Z.odd q)).
  { rewrite T0, T1. destruct (Z.leb_spec (2 ^ (d - 1)) r) as [L|L]; cbn [andb].
    - assert (LZ1 : (low_zero_bits m <? d - 1) = (2 ^ d <? 2 * r)).
      { pose proof (low_zero_lt m (d - 1) Hm ltac:(lia)) as L1. rewrite (R1 L) in L1. destruct (Z.ltb_spec (2 ^ d) (2 * r)) as [C|C].
        - apply Z.ltb_lt, L1. lia.
        - apply Z.ltb_ge. destruct (Z_lt_le_dec (low_zero_bits m) (d - 1)) as [G|G]; [|exact G]. apply L1 in G. lia. }
      rewrite LZ1. destruct (Z.ltb_spec (2 ^ d) (2 * r)) as [C|C]; [apply orb_true_r|].
      rewrite (proj2 (Z.eqb_eq (2 * r) (2 ^ d))) by lia. cbn [andb orb]. apply orb_false_r.
    - rewrite (proj2 (Z.ltb_ge (2 ^ d) (2 * r))) by lia. rewrite (proj2 (Z.eqb_neq (2 * r) (2 ^ d))) by lia. reflexivity. }
  destruct mode; cbn [increment cut]; try reflexivity; try exact TE; try exact LZ.
  rewrite T1. destruct (Z.leb_spec (2 ^ (d - 1)) r); symmetry; [apply Z.leb_le; lia|apply Z.leb_gt; lia].
Qed.

Lemma half_abs (x : Q) : (- (1 # 2) <= x)%Q -> (x <= 1 # 2)%Q -> (Qabs x <= 1 # 2)%Q.
Proof. intros H1 H2. apply Qabs_Qle_condition. split; assumption. Qed.
Lemma half_abs_eq (x : Q) : (Qabs x == 1 # 2)%Q -> (x == 1 # 2)%Q \/ (x == - (1 # 2))%Q.
Proof. apply Qabs_case; intros _ H; [left|right]; lra. Qed.

(** The kept part, incremented or not, is the rounding of the number. *)
Lemma cut_rounded mode s q r p y : (s = 1 \/ s = -1) -> 0 <= q -> 0 <= r < p ->
  (y == inject_Z s * (inject_Z q + inject_Z r / inject_Z p))%Q ->
  rounded mode y (s * (if cut (resolve_mode s mode) q r p then q + 1 else q)).
Proof.
  intros Hs Hq Hr Y. set (f := (inject_Z r / inject_Z p)%Q) in *.
  assert (Pp : (0 < inject_Z p)%Q) by (change 0%Q with (inject_Z 0); rewrite <- Zlt_Qlt; lia).
  assert (Fr : (f * inject_Z p == inject_Z r)%Q) by (unfold f; field; intros E; rewrite E in Pp; apply (Qlt_irrefl 0 Pp)).
  assert (F0 : (0 <= f)%Q) by (unfold f; apply Qle_shift_div_l; [exact Pp|]; rewrite Qmult_0_l; change 0%Q with (inject_Z 0); rewrite <- Zle_Qle; lia).
  assert (F1 : (f < 1)%Q) by (unfold f; apply Qlt_shift_div_r; [exact Pp|]; rewrite Qmult_1_l; rewrite <- Zlt_Qlt; lia).
  assert (FZ : r = 0 <-> (f == 0)%Q).
  { split; [intros E; unfold f; rewrite E; unfold Qdiv; apply Qmult_0_l|]. intros E. rewrite E, Qmult_0_l in Fr. apply inject_Z_injective. rewrite <- Fr. reflexivity. }
  assert (FH : (2 * r < p <-> (f < 1 # 2)%Q) /\ (2 * r = p <-> (f == 1 # 2)%Q)).
  { assert (E2 : (inject_Z (2 * r) == 2 * f * inject_Z p)%Q) by (rewrite inject_Z_mult, <- Fr; change (inject_Z 2) with 2%Q; ring).
    split; split; intros H.
    - rewrite Zlt_Qlt, E2 in H. assert (2 * f * inject_Z p < 1 * inject_Z p)%Q as H' by lra. apply Qmult_lt_r in H'; [lra|exact Pp].
    - rewrite Zlt_Qlt, E2. setoid_replace (inject_Z p) with (1 * inject_Z p)%Q at 2 by ring. apply Qmult_lt_r; [exact Pp|lra].
    - assert (Q : (2 * f * inject_Z p == 1 * inject_Z p)%Q) by (rewrite <- E2, H; ring). apply Qmult_inj_r in Q; [lra|intros E; rewrite E in Pp; apply (Qlt_irrefl 0 Pp)].
    - apply inject_Z_injective. rewrite E2, H. ring. }
  destruct FH as [FH1 FH2].
  assert (Q0 : (0 <= inject_Z q)%Q) by (change 0%Q with (inject_Z 0); rewrite <- Zle_Qle; exact Hq).
  assert (I1 : forall z, (inject_Z (1 * z) == inject_Z z)%Q) by (intros z; rewrite Z.mul_1_l; reflexivity).
  assert (I2 : forall z, (inject_Z (-1 * z) == - inject_Z z)%Q) by (intros z; replace (-1 * z) with (- z) by lia; rewrite inject_Z_opp; reflexivity).
  assert (IP : (inject_Z (q + 1) == inject_Z q + 1)%Q) by (rewrite inject_Z_plus; reflexivity).
  set (qq := inject_Z q) in *.
  assert (EV : forall c : bool, c = true -> cut kRoundTiesToEven q r p = c -> (1 # 2 <= f)%Q /\ (f == 1 # 2 -> Z.odd q = true)%Q).
  { intros c -> E. cbn [cut] in E. apply orb_true_iff in E. rewrite Z.ltb_lt, andb_true_iff, Z.eqb_eq in E. split.
    - destruct (Qlt_le_dec f (1 # 2)) as [L|L]; [|exact L]. apply FH1 in L. lia.
    - intros H. apply FH2 in H. destruct E as [E|[_ E]]; [lia|exact E]. }
  assert (OD : cut kRoundTiesToEven q r p = false -> (f <= 1 # 2)%Q /\ (f == 1 # 2 -> Z.odd q = false)%Q).
  { intros E. cbn [cut] in E. apply orb_false_iff in E. rewrite Z.ltb_ge, andb_false_iff, Z.eqb_neq in E. split.
    - destruct (Qlt_le_dec (1 # 2) f) as [L|L]; [|exact L]. exfalso.
      destruct (Z_lt_le_dec (2 * r) p) as [C|C]; [apply FH1 in C; lra|]. assert (2 * r = p) as D by lia. apply FH2 in D. lra.
    - intros H. apply FH2 in H. destruct E as [_ [E|E]]; [contradiction|exact E]. }
  assert (AW : cut kRoundTiesAwayFromZero q r p = true -> (1 # 2 <= f)%Q).
  { cbn [cut]. rewrite Z.leb_le. intros E. destruct (Qlt_le_dec f (1 # 2)) as [L|L]; [|exact L]. apply FH1 in L. lia. }
  assert (AN : cut kRoundTiesAwayFromZero q r p = false -> (f < 1 # 2)%Q).
  { cbn [cut]. rewrite Z.leb_gt. intros E. apply FH1. exact E. }
  assert (UP : cut kRoundAwayFromZero q r p = true -> (0 < f)%Q).
  { cbn [cut]. rewrite negb_true_iff, Z.eqb_neq. intros E. destruct (Qlt_le_dec 0 f) as [L|L]; [exact L|]. exfalso. apply E, FZ. lra. }
  assert (UN : cut kRoundAwayFromZero q r p = false -> (f == 0)%Q).
  { cbn [cut]. rewrite negb_false_iff, Z.eqb_eq. intros E. apply FZ, E. }
  assert (EvO : forall z, Z.even z = negb (Z.odd z)) by (intros z; rewrite Z.negb_odd; reflexivity).
  assert (OdS : Z.odd (q + 1) = negb (Z.odd q)) by (rewrite Z.odd_add; cbn; apply xorb_true_r).
  clearbody f. clear Fr Pp FH1 FH2 FZ Hr.
  destruct Hs as [-> | ->]; destruct mode; cbn [resolve_mode rounded Z.ltb Z.compare].
  all: [> destruct (cut kRoundTiesToEven q r p) eqn:K | destruct (cut kRoundTiesAwayFromZero q r p) eqn:K | cbn [cut] | destruct (cut kRoundAwayFromZero q r p) eqn:K
        | destruct (cut kRoundAwayFromZero q r p) eqn:K | cbn [cut]
        | destruct (cut kRoundTiesToEven q r p) eqn:K | destruct (cut kRoundTiesAwayFromZero q r p) eqn:K | cbn [cut] | destruct (cut kRoundAwayFromZero q r p) eqn:K
        | cbn [cut] | destruct (cut kRoundAwayFromZero q r p) eqn:K ].
  all: rewrite ?I1, ?I2, ?IP; fold qq; rewrite ?Y; change (inject_Z 1) with 1%Q; change (inject_Z (-1)) with (-1 # 1)%Q.
  (* s = 1 *)
  - destruct (EV true eq_refl eq_refl) as [A B]. split; [apply half_abs; lra|]. intros T. apply half_abs_eq in T.
    rewrite Z.mul_1_l, EvO, OdS. rewrite B by (destruct T; lra). reflexivity.
  - destruct (OD eq_refl) as [A B]. split; [apply half_abs; lra|]. intros T. apply half_abs_eq in T.
    rewrite Z.mul_1_l, EvO. rewrite B by (destruct T; lra). reflexivity.
  - pose proof (AW eq_refl) as A. split; [apply half_abs; lra|]. intros T. rewrite !Qabs_pos by lra. lra.
  - pose proof (AN eq_refl) as A. split; [apply half_abs; lra|]. intros T. apply half_abs_eq in T. exfalso. destruct T; lra.
  - split; intros H; split; lra.
  - pose proof (UP eq_refl) as A. split; intros H; split; lra.
  - pose proof (UN eq_refl) as A. split; intros H; split; lra.
  - pose proof (UP eq_refl) as A. split; lra.
  - pose proof (UN eq_refl) as A. split; lra.
  - split; lra.
  (* s = -1 *)
  - destruct (EV true eq_refl eq_refl) as [A B]. split; [apply half_abs; lra|]. intros T. apply half_abs_eq in T.
    rewrite Z.even_mul. change (Z.even (-1)) with false. cbn [orb]. rewrite EvO, OdS. rewrite B by (destruct T; lra). reflexivity.
  - destruct (OD eq_refl) as [A B]. split; [apply half_abs; lra|]. intros T. apply half_abs_eq in T.
    rewrite Z.even_mul. change (Z.even (-1)) with false. cbn [orb]. rewrite EvO. rewrite B by (destruct T; lra). reflexivity.
  - pose proof (AW eq_refl) as A. split; [apply half_abs; lra|]. intros T. rewrite !Qabs_neg by lra. lra.
  - pose proof (AN eq_refl) as A. split; [apply half_abs; lra|]. intros T. apply half_abs_eq in T. exfalso. destruct T; lra.
  - split; intros H; split; lra.
  - pose proof (UP eq_refl) as A. split; intros H; split; lra.
  - pose proof (UN eq_refl) as A. split; intros H; split; lra.
  - split; lra.
  - pose proof (UP eq_refl) as A. split; lra.
  - pose proof (UN eq_refl) as A. split; lra.
Qed.
Lemma rounded_comp mode y y' n : (y == y')%Q -> rounded mode y n -> rounded mode y' n.
Proof. intros E. destruct mode; cbn [rounded]; rewrite E; exact (fun H => H). Qed.
Lemma rounded_exact mode y n : (y == inject_Z n)%Q -> rounded mode y n.
Proof.
  intros E. assert (D : (Qabs (y - inject_Z n) == 0)%Q) by (rewrite E; setoid_replace (inject_Z n - inject_Z n)%Q with 0%Q by ring; reflexivity).
  destruct mode; cbn [rounded]; rewrite ?D; rewrite ?E; try (split; lra); try (split; intros; split; lra).
Qed.

Lemma round_core a e mode : canonical a -> is_normal a = true -> bn_exp a < e ->
  exists k, round_to_power_of_2 a e mode = canonicalize {| sign := sign a; bn_exp := e; bn := k |} /\
    0 <= k <= bn a /\ rounded mode (value a * pow2 (- e)) (sign a * k) /\
    (e - bn_exp a <= num_bits (bn a) - 1 -> 2 ^ (num_bits (bn a) - (e - bn_exp a) - 1) <= k <= 2 ^ (num_bits (bn a) - (e - bn_exp a))).
Proof.
  intros C N L0. destruct (canonical_normal a C N) as (P & O & E & Pr). pose proof (canonical_sign a C) as Sg.
  unfold round_to_power_of_2. cbv zeta. rewrite (proj2 (Z.leb_gt _ _)) by lia.
  set (d := e - bn_exp a). assert (L : 0 < d) by (unfold d; lia). destruct (split_bits (bn a) d (Z.lt_le_incl _ _ P) L) as (Qp & Rb & _).
  rewrite increment_cut by assumption. set (q := Z.shiftr (bn a) d) in *. set (r := bn a - q * 2 ^ d) in *.
  set (k := if cut (resolve_mode (sign a) mode) q r (2 ^ d) then q + 1 else q).
  assert (Kq : q <= k <= q + 1) by (unfold k; destruct (cut (resolve_mode (sign a) mode) q r (2 ^ d)); lia).
  assert (B0 : bn a = q * 2 ^ d + r) by (unfold r; lia).
  assert (PD0 : 2 <= 2 ^ d) by (replace d with (Z.succ (d - 1)) by lia; rewrite Z.pow_succ_r by lia; pose proof (Z.pow_pos_nonneg 2 (d - 1) ltac:(lia) ltac:(lia)); lia).
  exists k. replace (bn_exp a + d) with e by (unfold d; lia). split; [reflexivity|]. split; [|split].
  - split; [lia|]. destruct (Z.eq_dec q 0) as [Q0|Q0]; [lia|]. nia.
  - apply cut_rounded; [exact Sg|exact Qp|exact Rb|]. rewrite value_normal by exact N.
    assert (PD : ~ (inject_Z (2 ^ d) == 0)%Q).
    { intros H. change 0%Q with (inject_Z 0) in H. apply (proj1 (inject_Z_injective _ _)) in H. rewrite H in PD0. apply PD0. reflexivity. }
    rewrite inject_Z_mult. rewrite <- !Qmult_assoc. apply Qmult_comp; [reflexivity|].
    rewrite <- pow2_plus. replace (bn_exp a + - e) with (- d) by (unfold d; lia).
    assert (Inv : (pow2 (- d) * inject_Z (2 ^ d) == 1)%Q).
    { rewrite <- pow2_Z by lia. rewrite <- pow2_plus. replace (- d + d) with 0 by lia. reflexivity. }
    assert (B : (inject_Z (bn a) == inject_Z q * inject_Z (2 ^ d) + inject_Z r)%Q).
    { rewrite <- inject_Z_mult, <- inject_Z_plus. rewrite <- B0. reflexivity. }
    apply (Qmult_inj_r _ _ _ PD). rewrite <- Qmult_assoc, Inv, Qmult_1_r, B. field. exact PD.
  - intros Hd. pose proof (num_bits_bounds (bn a) P) as [NL NU]. set (nb := num_bits (bn a)) in *.
    assert (S1 : 2 ^ nb = 2 ^ (nb - d) * 2 ^ d) by (rewrite <- Z.pow_add_r by lia; f_equal; lia).
    assert (S2 : 2 ^ (nb - 1) = 2 ^ (nb - d - 1) * 2 ^ d) by (rewrite <- Z.pow_add_r by lia; f_equal; lia).
    assert (q < 2 ^ (nb - d)).
    { apply Z.mul_lt_mono_pos_r with (2 ^ d); [lia|]. lia. }
    assert (2 ^ (nb - d - 1) <= q).
    { assert (2 ^ (nb - d - 1) < q + 1); [|lia]. apply Z.mul_lt_mono_pos_r with (2 ^ d); [lia|]. lia. }
    lia.
Qed.
Theorem round_power a e mode : canonical a -> is_normal a = true -> e <= kMaxExp ->
  exists n, rounded mode (value a * pow2 (- e)) n /\ stored (inject_Z n * pow2 e) (round_to_power_of_2 a e mode) /\
    (n = 0 -> round_to_power_of_2 a e mode = signed_zero (sign a)).
Proof.
  intros C N He. destruct (canonical_normal a C N) as (P & O & E & Pr). pose proof (canonical_sign a C) as Sg. kf.
  destruct (Z_le_gt_dec e (bn_exp a)) as [L|L].
  - unfold round_to_power_of_2. cbv zeta. rewrite (proj2 (Z.leb_le (e - bn_exp a) 0)) by lia. exists (sign a * bn a * 2 ^ (bn_exp a - e)). split; [|split].
    + apply rounded_exact. rewrite value_normal by exact N. rewrite (shift_val (sign a * bn a) (bn_exp a) e) by lia.
      rewrite <- Qmult_assoc, <- pow2_plus. replace (e + - e) with 0 by lia. change (pow2 0) with 1%Q. ring.
    + eapply stored_comp; [|apply stored_normal; assumption]. rewrite value_normal by exact N. apply shift_val. lia.
    + intros Z. exfalso. assert (0 < 2 ^ (bn_exp a - e)) by (apply Z.pow_pos_nonneg; lia). destruct Sg as [S|S]; rewrite S in Z; nia.
  - destruct (round_core a e mode C N ltac:(lia)) as (k & -> & K & R & _). exists (sign a * k). split; [exact R|]. split.
    + apply canonicalize_stored; [exact Sg|lia|lia].
    + intros Z. assert (k = 0) as -> by (destruct Sg as [S|S]; rewrite S in Z; lia).
      destruct (canonicalize_stored_as (sign a) 0 e Sg (Z.le_refl 0) ltac:(lia)) as (_ & U & _). apply U.
      rewrite abs_sm by (exact Sg || lia). change (inject_Z 0) with 0%Q. rewrite Qmult_0_l. apply pow2_pos.
Qed.
Lemma round_special a e mode : canonical a -> is_normal a = false -> e <= kMaxExp -> round_to_power_of_2 a e mode = a.
Proof.
  intros C N He. unfold round_to_power_of_2. unfold is_normal in N. apply Z.ltb_ge in N. kf.
  rewrite (proj2 (Z.leb_le (e - bn_exp a) 0)) by lia. reflexivity.
Qed.

(** Rounding to an integer never leaves the range of values that can be stored. *)
Theorem round_integer a mode : canonical a -> is_finite a = true ->
  let r := round_to_power_of_2 a 0 mode in
  canonical r /\ is_finite r = true /\ sign r = sign a /\ exists n, rounded mode (value a) n /\ (value r == inject_Z n)%Q.
Proof.
  intros C F r. pose proof (canonical_sign a C) as Sg. kf. destruct (finite_kind a C F) as [N|Z].
  2:{ assert (NN : is_normal a = false) by (rewrite Z; apply flags_zero).
      unfold r. rewrite (round_special a 0 mode C NN) by lia. repeat split; try assumption; try apply C.
      exists 0. rewrite Z, value_zero. split; [apply rounded_exact; reflexivity|reflexivity]. }
  destruct (canonical_normal a C N) as (P & O & E & Pr).
  destruct (Z_le_gt_dec 0 (bn_exp a)) as [L|L].
  - assert (R : r = a) by (unfold r, round_to_power_of_2; cbv zeta; rewrite (proj2 (Z.leb_le (0 - bn_exp a) 0)) by lia; reflexivity).
    rewrite R. split; [exact C|]. split; [exact F|]. split; [reflexivity|].
    exists (sign a * bn a * 2 ^ bn_exp a).
    assert (V : (value a == inject_Z (sign a * bn a * 2 ^ bn_exp a))%Q).
    { rewrite value_normal by exact N. rewrite (shift_val (sign a * bn a) (bn_exp a) 0) by lia. rewrite Z.sub_0_r. change (pow2 0) with 1%Q. ring. }
    split; [apply rounded_exact|]; exact V.
  - destruct (round_core a 0 mode C N ltac:(lia)) as (k & Rk & K & R & _). fold r in Rk.
    change (pow2 (- 0)) with 1%Q in R. apply (rounded_comp _ _ (value a)) in R; [|ring].
    assert (St : stored_as (sign a) (inject_Z (sign a * k) * pow2 0) r) by (rewrite Rk; apply canonicalize_stored_as; [exact Sg|lia|lia]).
    split; [apply St|]. pose proof (abs_sm (sign a) k 0 Sg (proj1 K)) as A.
    assert (G : is_finite r = true /\ sign r = sign a /\ (value r == inject_Z (sign a * k))%Q).
    { destruct (Z.eq_dec k 0) as [K0|K0].
      - destruct St as (_ & U & _). rewrite U.
        + rewrite K0, Z.mul_0_r, value_zero. split; [apply flags_zero|]. split; reflexivity.
        + rewrite A, K0. change (inject_Z 0) with 0%Q. rewrite Qmult_0_l. apply pow2_pos.
      - assert (Kp : 0 < k) by lia. pose proof (num_bits_ge1 k Kp).
        assert (NB : num_bits k <= kMaxPrec).
        { apply num_bits_le; [exact Kp|lia|]. unfold prec in Pr. apply num_bits_le in Pr; [|exact P|lia]. lia. }
        destruct (stored_as_exact _ _ _ St) as [Nr V].
        + rewrite A. apply mag_ge; lia.
        + rewrite A. apply mag_lt; lia.
        + exists (sign a * k), 0. split; [|reflexivity]. apply num_bits_le in NB; [|exact Kp|lia]. destruct Sg as [S|S]; rewrite S; lia.
        + split; [apply normal_flags, Nr|]. change (pow2 0) with 1%Q in V. rewrite Qmult_1_r in V. split; [|exact V].
          destruct (normal_value_sign r (proj1 St) Nr) as [(S & Vs & _)|(S & Vs & _)]; rewrite S; rewrite V in Vs.
          * change 0%Q with (inject_Z 0) in Vs. rewrite <- Zlt_Qlt in Vs. destruct Sg as [S'|S']; rewrite S' in *; lia.
          * change 0%Q with (inject_Z 0) in Vs. rewrite <- Zlt_Qlt in Vs. destruct Sg as [S'|S']; rewrite S' in *; lia. }
    destruct G as (G1 & G2 & G3). split; [exact G1|]. split; [exact G2|]. exists (sign a * k). split; [exact R|exact G3].
Qed.

Lemma bn_lt a k : canonical a -> is_normal a = true -> k <= bn a -> k < 2 ^ kMaxPrec.
Proof.
  intros C N L. destruct (canonical_normal a C N) as (P & _ & _ & Pr). unfold prec in Pr.
  apply num_bits_le in Pr; [lia|exact P|]. kf. rewrite KP. lia.
Qed.
Lemma abs_sk s k p : (s = 1 \/ s = -1) -> 0 <= k -> k < p -> Z.abs (s * k) < p.
Proof. intros [-> | ->]; lia. Qed.

(** ** Rounding to a number of bits *)
Theorem round_max_prec a p mode : canonical a -> is_normal a = true -> 1 <= p <= kMaxPrec ->
  (prec a <= p -> round_to_max_prec a p mode = a) /\
  prec (round_to_max_prec a p mode) <= p /\
  (p < prec a -> exists n, 2 ^ (p - 1) <= Z.abs n <= 2 ^ p /\ rounded mode (value a * pow2 (p - exp a)) n /\
     stored (inject_Z n * pow2 (exp a - p)) (round_to_max_prec a p mode)).
Proof.
  intros C N Hp. destruct (canonical_normal a C N) as (P & O & E & Pr). pose proof (canonical_sign a C) as Sg. kf.
  unfold round_to_max_prec. cbv zeta. split; [intros H; rewrite (proj2 (Z.leb_le _ _)) by lia; reflexivity|].
  destruct (Z.leb_spec (prec a - p) 0) as [L|L]; [split; [lia|intros H; lia]|].
  set (e := bn_exp a + (prec a - p)). assert (Ee : e = exp a - p) by (unfold e, exp, prec; lia).
  destruct (round_core a e mode C N ltac:(unfold e; lia)) as (k & -> & K & R & B).
  unfold prec in *. assert (EX : exp a = bn_exp a + num_bits (bn a)) by reflexivity.
  assert (B' : 2 ^ (p - 1) <= k <= 2 ^ p).
  { replace p with (num_bits (bn a) - (e - bn_exp a)) by lia. apply B. lia. }
  clear B. assert (P1 : 0 < 2 ^ (p - 1)) by (apply Z.pow_pos_nonneg; lia). assert (Kp : 0 < k) by lia.
  assert (St : stored_as (sign a) (inject_Z (sign a * k) * pow2 e) (canonicalize {| sign := sign a; bn_exp := e; bn := k |})) by (apply canonicalize_stored_as; [exact Sg|lia|lia]).
  set (r := canonicalize {| sign := sign a; bn_exp := e; bn := k |}) in *. split.
  - destruct (is_normal r) eqn:Nr.
    + assert (V : (value r == inject_Z (sign a * k) * pow2 e)%Q).
      { destruct St as (Cr & U & Ov & F). set (q := (inject_Z (sign a * k) * pow2 e)%Q) in *.
        destruct (Qlt_le_dec (Qabs q) (pow2 (kMinExp - 1))) as [H|H].
        { rewrite (U H) in Nr. destruct (flags_zero (sign a)) as (G & _). congruence. }
        destruct (Qlt_le_dec (Qabs q) (pow2 kMaxExp)) as [H'|H'].
        2:{ rewrite (Ov H') in Nr. destruct (flags_inf (sign a)) as (G & _). congruence. }
        destruct (F H H') as [F1 _]. apply F1. exists (sign a * k), e. split; [|reflexivity].
        apply abs_sk; [exact Sg|apply K|]. apply (bn_lt a k C N (proj2 K)). }
      destruct (canonical_normal r (proj1 St) Nr) as (Rp & Ro & _).
      assert (Vb : (inject_Z (bn r) * pow2 (bn_exp r) == inject_Z k * pow2 e)%Q).
      { rewrite <- (value_abs r (proj1 St) Nr), V. apply abs_sm; [exact Sg|lia]. }
      destruct (Z.eq_dec k (2 ^ p)) as [Kt|Kt].
      * rewrite Kt in Vb. rewrite <- pow2_Z in Vb by lia. rewrite <- pow2_plus in Vb.
        setoid_replace (pow2 (p + e)) with (inject_Z 1 * pow2 (p + e))%Q in Vb by (change (inject_Z 1) with 1%Q; ring).
        destruct (odd_shortest _ _ _ _ Rp Ro Vb) as [L2 M]. assert (0 < 2 ^ (bn_exp r - (p + e))) by (apply Z.pow_pos_nonneg; lia).
        assert (bn r = 1) as -> by nia. change (num_bits 1) with 1. lia.
      * destruct (odd_shortest _ _ _ _ Rp Ro Vb) as [L' M]. assert (0 < 2 ^ (bn_exp r - e)) by (apply Z.pow_pos_nonneg; lia).
        apply num_bits_le; [exact Rp|lia|]. nia.
    + destruct (canonical_kind r (proj1 St)) as [H|[H|[H|[_ H]]]]; [congruence|rewrite H; cbn; lia|rewrite H; cbn; lia|rewrite H; cbn; lia].
  - intros _. exists (sign a * k). split; [destruct Sg as [S|S]; rewrite S; lia|]. replace (p - exp a) with (- e) by lia. split; [exact R|].
    rewrite <- Ee. apply (stored_as_stored (sign a)); [apply sm_pos; [exact Sg|lia]|apply sm_neg; [exact Sg|lia]|exact St].
Qed.

(** ** Conversion to integers *)
Theorem to_integer_spec lo hi a mode : canonical a -> - 2 ^ 63 <= lo <= 0 -> 0 <= hi < 2 ^ 63 ->
  (is_nan a = true -> to_integer lo hi a mode = hi) /\
  (is_inf a = true -> to_integer lo hi a mode = if sign a <? 0 then lo else hi) /\
  (is_finite a = true -> exists n, rounded mode (value a) n /\ to_integer lo hi a mode = Z.max lo (Z.min hi n)).
Proof.
  intros C Hlo Hhi. unfold to_integer. cbv zeta. kf. split; [|split].
  - intros Na. rewrite round_special; [|exact C|apply (nan_flags a Na)|lia]. rewrite Na. reflexivity.
  - intros Ia. destruct (inf_flags a Ia) as (Nn & Nz & Nn' & _). rewrite round_special; [|exact C|exact Nn|lia]. rewrite Nn', Nz, Ia. reflexivity.
  - intros Fa. destruct (round_integer a mode C Fa) as (Cr & Fr & Sr & n & R & V). set (r := round_to_power_of_2 a 0 mode) in *.
    exists n. split; [exact R|]. rewrite (finite_not_nan r Fr). destruct (finite_kind r Cr Fr) as [Nr|Zr].
    + destruct (normal_flags r Nr) as (-> & -> & _). cbn [negb]. destruct (canonical_normal r Cr Nr) as (Pr & Or & _).
      assert (Va : (inject_Z (bn r) * pow2 (bn_exp r) == inject_Z (Z.abs n) * pow2 0)%Q).
      { rewrite <- (value_abs r Cr Nr), V. change (pow2 0) with 1%Q. rewrite Qmult_1_r. unfold Qabs, inject_Z. reflexivity. }
      assert (Va' : (inject_Z (bn r) * pow2 (bn_exp r) == inject_Z (Z.abs n))%Q) by (rewrite Va; change (pow2 0) with 1%Q; ring).
      destruct (odd_shortest _ _ _ _ Pr Or Va) as [L M]. rewrite Z.sub_0_r in M.
      assert (Sn : sign r = 1 /\ 0 < n \/ sign r = -1 /\ n < 0).
      { destruct (normal_value_sign r Cr Nr) as [(S & Vs & _)|(S & Vs & _)]; rewrite V in Vs; change 0%Q with (inject_Z 0) in Vs; rewrite <- Zlt_Qlt in Vs; auto. }
      destruct (Z.ltb_spec (exp r) 64) as [Ex|Ex].
      * rewrite Z.shiftl_mul_pow2 by lia. rewrite <- M. destruct Sn as [[-> Sn]|[-> Sn]]; cbn [Z.ltb Z.compare]; clear -Sn; lia.
      * assert (2 ^ 63 <= Z.abs n).
        { destruct (mag (bn r) (bn_exp r) Pr) as [ML _]. fold (exp r) in ML. rewrite Va' in ML. rewrite Zle_Qle.
          eapply Qle_trans; [|exact ML]. rewrite <- pow2_Z by lia. apply pow2_le. lia. }
        destruct Sn as [[-> Sn]|[-> Sn]]; cbn [Z.ltb Z.compare]; lia.
    + rewrite Zr in V |- *. destruct (flags_zero (sign r)) as (_ & -> & _). rewrite value_zero in V. change 0%Q with (inject_Z 0) in V.
      apply (proj1 (inject_Z_injective _ _)) in V. lia.
Qed.

(** ** Conversion to double *)
Lemma magnitude_unique m e x : 0 < m -> (pow2 (x - 1) <= inject_Z m * pow2 e)%Q -> (inject_Z m * pow2 e < pow2 x)%Q -> x = e + num_bits m.
Proof.
  intros P L U. apply (mag_ge m e _ P) in L. apply (mag_lt m e _ P) in U. lia.
Qed.
Lemma std_round s m e : 0 < m ->
  exists k, 0 <= k /\ rounded kRoundTiesToEven (inject_Z m * pow2 e * pow2 (- spacing (e + num_bits m))) k /\
    (spacing (e + num_bits m) <= e -> k = m * 2 ^ (e - spacing (e + num_bits m))) /\
    (k = 0 -> spacing (e + num_bits m) = -1074) /\
    std_ldexp s m e = if 1024 <? num_bits k + spacing (e + num_bits m) then DInf s else DFinite s k (spacing (e + num_bits m) + 53).
Proof.
  intros P. unfold std_ldexp. rewrite (proj2 (Z.eqb_neq m 0)) by lia. cbv zeta.
  replace (Z.max (-1074) (num_bits m + e - 53)) with (spacing (e + num_bits m)) by (unfold spacing; lia).
  set (g := spacing (e + num_bits m)) in *. destruct (Z.ltb_spec e g) as [L|L].
  - set (d := g - e). assert (D : 0 < d) by (unfold d; lia).
    destruct (split_bits m d (Z.lt_le_incl _ _ P) D) as (Qp & Rb & _). rewrite Z.shiftl_mul_pow2 by lia.
    rewrite Z.shiftl_mul_pow2 by lia. rewrite Z.mul_1_l.
    set (q := Z.shiftr m d) in *. set (r := m - q * 2 ^ d) in *.
    assert (E2 : 2 ^ d = 2 * 2 ^ (d - 1)) by (rewrite <- Z.pow_succ_r by lia; f_equal; lia).
    assert (Cq : (2 ^ (d - 1) <? r) || ((r =? 2 ^ (d - 1)) && Z.odd q) = cut kRoundTiesToEven q r (2 ^ d)).
    { cbn [cut]. f_equal; [|f_equal].
      - destruct (Z.ltb_spec (2 ^ (d - 1)) r), (Z.ltb_spec (2 ^ d) (2 * r)); reflexivity || lia.
      - destruct (Z.eqb_spec r (2 ^ (d - 1))), (Z.eqb_spec (2 * r) (2 ^ d)); reflexivity || lia. }
    rewrite Cq. set (k := if cut kRoundTiesToEven q r (2 ^ d) then q + 1 else q).
    assert (Kq : q <= k) by (unfold k; destruct (cut kRoundTiesToEven q r (2 ^ d)); lia).
    exists k. split; [lia|]. split; [|split; [|split; [|reflexivity]]].
    + assert (R : rounded kRoundTiesToEven (inject_Z 1 * (inject_Z q + inject_Z r / inject_Z (2 ^ d))) (1 * k)) by (unfold k; apply (cut_rounded kRoundTiesToEven 1 q r (2 ^ d)); auto; reflexivity).
      rewrite Z.mul_1_l in R. eapply rounded_comp; [|exact R]. change (inject_Z 1) with 1%Q.
      assert (PD : ~ (inject_Z (2 ^ d) == 0)%Q).
      { intros H. change 0%Q with (inject_Z 0) in H. apply (proj1 (inject_Z_injective _ _)) in H. pose proof (Z.pow_pos_nonneg 2 d ltac:(lia) ltac:(lia)). lia. }
      assert (Inv : (pow2 (- d) * inject_Z (2 ^ d) == 1)%Q).
      { rewrite <- pow2_Z by lia. rewrite <- pow2_plus. replace (- d + d) with 0 by lia. reflexivity. }
      assert (B : (inject_Z m == inject_Z q * inject_Z (2 ^ d) + inject_Z r)%Q).
      { rewrite <- inject_Z_mult, <- inject_Z_plus. unfold r. replace (q * 2 ^ d + (m - q * 2 ^ d)) with m by lia. reflexivity. }
      rewrite <- (Qmult_assoc (inject_Z m)), <- pow2_plus. replace (e + - g) with (- d) by (unfold d; lia).
      apply (Qmult_inj_r _ _ _ PD). rewrite <- (Qmult_assoc (inject_Z m)), Inv, Qmult_1_r, B. field. exact PD.
    + intros H. lia.
    + intros K0. assert (Q0 : q = 0) by lia. assert (M : m < 2 ^ d) by (unfold r in Rb; rewrite Q0 in Rb; lia).
      apply num_bits_le in M; [|exact P|lia]. unfold d in M. assert (G : g = spacing (e + num_bits m)) by reflexivity. unfold spacing in G. lia.
  - exists (m * 2 ^ (e - g)). pose proof (Z.pow_pos_nonneg 2 (e - g) ltac:(lia) ltac:(lia)) as PP. split; [nia|]. split; [|split; [|split]].
    + apply rounded_exact. rewrite (shift_val m e g) by lia. rewrite <- Qmult_assoc, <- pow2_plus. replace (g + - g) with 0 by lia. change (pow2 0) with 1%Q. ring.
    + reflexivity.
    + intros H. nia.
    + rewrite Z.shiftl_mul_pow2 by lia. reflexivity.
Qed.
Lemma std_ldexp_nearest s m e : (s = 1 \/ s = -1) -> 0 < m -> nearest_double (inject_Z (s * m) * pow2 e) s (std_ldexp s m e).
Proof.
  intros Hs P x L U. pose proof (abs_sm s m e Hs (Z.lt_le_incl _ _ P)) as A. rewrite A in L, U.
  rewrite (magnitude_unique m e x P L U). destruct (std_round s m e P) as (k & K0 & R & _ & Z & ->).
  set (g := spacing (e + num_bits m)) in *. exists k. split; [exact K0|]. split; [apply (rounded_comp _ _ _ _ (Qmult_comp _ _ (Qeq_sym _ _ A) _ _ (Qeq_refl _))); exact R|].
  destruct (Z.eq_dec k 0) as [E|E].
  - rewrite (Z E). rewrite E. change (num_bits 0 + -1074) with (-1074). cbn [Z.ltb Z.compare]. split.
    + intros H. exfalso. change (inject_Z 0) with 0%Q in H. rewrite Qmult_0_l in H. apply (Qlt_not_le _ _ (pow2_pos 1024) H).
    + intros _. exists 0, (-1074 + 53). split; [reflexivity|]. change (inject_Z 0) with 0%Q. rewrite !Qmult_0_l. reflexivity.
  - assert (Kp : 0 < k) by lia. split; intros H.
    + apply mag_ge in H; [|exact Kp]. rewrite (proj2 (Z.ltb_lt _ _)) by lia. reflexivity.
    + apply mag_lt in H; [|exact Kp]. rewrite (proj2 (Z.ltb_ge _ _)) by lia. exists k, (g + 53). split; [reflexivity|].
      replace (g + 53 - 53) with g by lia. reflexivity.
Qed.
Lemma helper_normal a : is_normal a = true -> to_double_helper a = std_ldexp (sign a) (bn a) (bn_exp a).
Proof. intros N. unfold to_double_helper. rewrite N. reflexivity. Qed.

Theorem to_double_short a : canonical a -> is_normal a = true -> prec a <= 53 -> nearest_double (value a) (sign a) (to_double a).
Proof.
  intros C N L. unfold to_double, kDoubleMantissaBits. rewrite (proj2 (Z.leb_le _ _)) by exact L. rewrite helper_normal by exact N.
  rewrite value_normal by exact N. apply std_ldexp_nearest; [apply canonical_sign, C|]. apply (canonical_normal a C N).
Qed.
Lemma rounded_even_neg y n : rounded kRoundTiesToEven (- y) (- n) -> rounded kRoundTiesToEven y n.
Proof.
  cbn [rounded]. assert (E : (Qabs (- y - inject_Z (- n)) == Qabs (y - inject_Z n))%Q).
  { rewrite inject_Z_opp. setoid_replace (- y - - inject_Z n)%Q with (- (y - inject_Z n))%Q by ring. apply Qabs_opp. }
  rewrite E, Z.even_opp. exact (fun H => H).
Qed.
Theorem to_double_normal a : canonical a -> is_normal a = true -> -1021 <= exp a -> nearest_double (value a) (sign a) (to_double a).
Proof.
  intros C N LE. destruct (Z_le_gt_dec (prec a) 53) as [S|S]; [apply to_double_short; assumption|].
  unfold to_double, kDoubleMantissaBits. rewrite (proj2 (Z.leb_gt _ _)) by lia. unfold round_to_max_prec. cbv zeta. rewrite (proj2 (Z.leb_gt _ _)) by lia.
  destruct (canonical_normal a C N) as (P & O & E & Pr). pose proof (canonical_sign a C) as Sg.
  set (e := bn_exp a + (prec a - 53)). assert (Ee : e = exp a - 53) by (unfold e, exp, prec; lia).
  destruct (round_max_prec a 53 kRoundTiesToEven C N) as (_ & Pc & _); [kf; lia|].
  unfold round_to_max_prec in Pc. cbv zeta in Pc. rewrite (proj2 (Z.leb_gt _ _)) in Pc by lia. fold e in Pc.
  destruct (round_core a e kRoundTiesToEven C N ltac:(unfold e; lia)) as (k & Rk & K & R & B).
  rewrite Rk in *. unfold prec in *. assert (EX : exp a = bn_exp a + num_bits (bn a)) by reflexivity.
  assert (B' : 2 ^ 52 <= k <= 2 ^ 53).
  { replace 52 with (num_bits (bn a) - (e - bn_exp a) - 1) by lia. replace 53 with (num_bits (bn a) - (e - bn_exp a)) by lia. apply B. lia. }
  clear B. change (2 ^ 52) with 4503599627370496 in B'. change (2 ^ 53) with 9007199254740992 in B'.
  assert (Kp : 0 < k) by lia.
  assert (KB : 53 <= num_bits k <= 54).
  { rewrite num_bits_pos by exact Kp. assert (52 <= Z.log2 k) by (apply Z.log2_le_pow2; [lia|change (2 ^ 52) with 4503599627370496; lia]).
    assert (Z.log2 k < 54) by (apply Z.log2_lt_pow2; [lia|change (2 ^ 54) with 18014398509481984; lia]). lia. }
  assert (St : stored_as (sign a) (inject_Z (sign a * k) * pow2 e) (canonicalize {| sign := sign a; bn_exp := e; bn := k |})).
  { apply canonicalize_stored_as; [exact Sg|lia|]. destruct k_facts as (_ & KMax & KZ & _). lia. }
  set (r := canonicalize {| sign := sign a; bn_exp := e; bn := k |}) in *.
  pose proof (abs_sm (sign a) k e Sg (proj1 K)) as A.
  intros x L U. rewrite (value_abs a C N) in L, U. rewrite (magnitude_unique (bn a) (bn_exp a) x P L U). rewrite <- EX.
  assert (G : spacing (exp a) = e) by (unfold spacing; lia). rewrite G. exists k. split; [lia|]. split; [|split].
  - assert (R' : rounded kRoundTiesToEven (inject_Z (bn a) * pow2 (bn_exp a) * pow2 (- e)) k).
    { rewrite value_normal in R by exact N. destruct Sg as [S1|S1]; rewrite S1 in R.
      - rewrite !Z.mul_1_l in R. exact R.
      - apply rounded_even_neg. replace (-1 * k) with (- k) in R by lia. eapply rounded_comp; [|exact R].
        replace (-1 * bn a) with (- bn a) by lia. rewrite inject_Z_opp. ring. }
    eapply rounded_comp; [|exact R']. rewrite (value_abs a C N). reflexivity.
  - intros H. destruct (Qlt_le_dec (inject_Z k * pow2 e) (pow2 kMaxExp)) as [Hk|Hk].
    + destruct (stored_as_exact _ _ _ St) as [Nr V].
      * rewrite A. apply mag_ge; [exact Kp|]. destruct k_facts as (KMin & _). lia.
      * rewrite A. exact Hk.
      * exists (sign a * k), e. split; [|reflexivity]. apply abs_sk; [exact Sg|apply K|]. apply (bn_lt a k C N (proj2 K)).
      * destruct (canonical_normal r (proj1 St) Nr) as (Rp & Ro & _).
        assert (Vb : (inject_Z (bn r) * pow2 (bn_exp r) == inject_Z k * pow2 e)%Q) by (rewrite <- (value_abs r (proj1 St) Nr), V; exact A).
        assert (Sr : sign r = sign a).
        { destruct (normal_value_sign r (proj1 St) Nr) as [(S1 & Vs & _)|(S1 & Vs & _)]; rewrite V in Vs; rewrite S1; symmetry.
          - apply sm_pos in Vs; [exact Vs|exact Sg|lia].
          - apply sm_neg in Vs; [exact Vs|exact Sg|lia]. }
        rewrite helper_normal by exact Nr. rewrite Sr. destruct (std_round (sign a) (bn r) (bn_exp r) Rp) as (k' & _ & _ & X & _ & ->).
        assert (XR : bn_exp r + num_bits (bn r) = e + num_bits k).
        { symmetry. apply magnitude_unique; [exact Rp|rewrite Vb; apply (mag k e Kp)|rewrite Vb; apply (mag k e Kp)]. }
        assert (SP : spacing (bn_exp r + num_bits (bn r)) <= bn_exp r) by (unfold spacing; lia).
        rewrite (X SP). rewrite num_bits_shift by lia. apply mag_ge in H; [|exact Kp]. rewrite (proj2 (Z.ltb_lt _ _)) by lia. reflexivity.
    + destruct St as (_ & _ & Ov & _). rewrite Ov by (rewrite A; exact Hk). unfold to_double_helper.
      destruct (flags_inf (sign a)) as (-> & -> & -> & _). reflexivity.
  - intros H. assert (Hk : (inject_Z k * pow2 e < pow2 kMaxExp)%Q).
    { eapply Qlt_trans; [exact H|]. apply pow2_lt. destruct k_facts as (_ & KMax & _). lia. }
    destruct (stored_as_exact _ _ _ St) as [Nr V].
    + rewrite A. apply mag_ge; [exact Kp|]. destruct k_facts as (KMin & _). lia.
    + rewrite A. exact Hk.
    + exists (sign a * k), e. split; [|reflexivity]. apply abs_sk; [exact Sg|apply K|]. apply (bn_lt a k C N (proj2 K)).
    + destruct (canonical_normal r (proj1 St) Nr) as (Rp & Ro & _).
      assert (Vb : (inject_Z (bn r) * pow2 (bn_exp r) == inject_Z k * pow2 e)%Q) by (rewrite <- (value_abs r (proj1 St) Nr), V; exact A).
      assert (Sr : sign r = sign a).
      { destruct (normal_value_sign r (proj1 St) Nr) as [(S1 & Vs & _)|(S1 & Vs & _)]; rewrite V in Vs; rewrite S1; symmetry.
        - apply sm_pos in Vs; [exact Vs|exact Sg|lia].
        - apply sm_neg in Vs; [exact Vs|exact Sg|lia]. }
      rewrite helper_normal by exact Nr. rewrite Sr. destruct (std_round (sign a) (bn r) (bn_exp r) Rp) as (k' & _ & _ & X & _ & ->).
      assert (XR : bn_exp r + num_bits (bn r) = e + num_bits k).
      { symmetry. apply magnitude_unique; [exact Rp|rewrite Vb; apply (mag k e Kp)|rewrite Vb; apply (mag k e Kp)]. }
      assert (SP : spacing (bn_exp r + num_bits (bn r)) <= bn_exp r) by (unfold spacing; lia).
      rewrite (X SP). rewrite num_bits_shift by lia. apply mag_lt in H; [|exact Kp]. rewrite (proj2 (Z.ltb_ge _ _)) by lia.
      exists (bn r * 2 ^ (bn_exp r - spacing (bn_exp r + num_bits (bn r)))), (spacing (bn_exp r + num_bits (bn r)) + 53). split; [reflexivity|].
      rewrite <- Vb. replace (spacing (bn_exp r + num_bits (bn r)) + 53 - 53) with (spacing (bn_exp r + num_bits (bn r))) by lia.
      symmetry. apply shift_val. exact SP.
Qed.
Theorem to_double_special a : canonical a ->
  (is_nan a = true -> to_double a = DNaN) /\ (is_inf a = true -> to_double a = DInf (sign a)) /\ (is_zero a = true -> to_double a = DFinite (sign a) 0 0).
Proof.
  intros C. assert (SP : is_normal a = false -> to_double a = to_double_helper a).
  { intros N. unfold to_double. destruct C as [_ [[B _]|(P & _ & E & _)]].
    - unfold prec. rewrite B. reflexivity.
    - exfalso. unfold is_normal in N. apply Z.ltb_ge in N. unfold exp in E. pose proof (num_bits_ge1 _ P). kf. lia. }
  unfold to_double_helper in SP. split; [|split]; intros H.
  - destruct (nan_flags a H) as (N & Z & I & _). rewrite (SP N), N, Z, I. reflexivity.
  - destruct (inf_flags a H) as (N & Z & _). rewrite (SP N), N, Z, H. reflexivity.
  - assert (N : is_normal a = false) by (rewrite (zero_kind a C H); apply flags_zero). rewrite (SP N), N, H. reflexivity.
Qed.

(** ** Results are canonical *)
Ltac branches := repeat match goal with |- canonical (if ?c then _ else _) => destruct c end;
  match goal with
  | |- canonical nan => apply canonical_nan
  | |- canonical (infinity _) => apply canonical_inf; assumption
  | |- canonical (signed_zero 1) => apply canonical_zero; left; reflexivity
  | |- canonical (signed_zero _) => apply canonical_zero; assumption
  | |- canonical (copy_with_sign _ _) => apply copy_canonical; assumption
  | _ => assumption
  end.
Lemma sum_canonical a b sb : canonical a -> canonical b -> (sb = 1 \/ sb = -1) -> canonical (signed_sum (sign a) a sb b).
Proof.
  intros Ca Cb Sb. pose proof (canonical_sign a Ca) as Sa.
  destruct (is_normal a) eqn:Na; [destruct (is_normal b) eqn:Nb|].
  - assert (E : signed_sum (sign a) a sb b = add a (copy_with_sign b sb)).
    { unfold add, signed_sum. change (is_normal (copy_with_sign b sb)) with (is_normal b). rewrite Na, Nb. cbn [negb orb].
      change (bn_exp (copy_with_sign b sb)) with (bn_exp b). destruct (bn_exp a <? bn_exp b); reflexivity. }
    rewrite E. apply (add_normal a (copy_with_sign b sb) Ca (copy_canonical b sb Sb Cb) Na Nb).
  - unfold signed_sum. rewrite Na, Nb. cbn [negb orb].
    branches.
  - unfold signed_sum. rewrite Na. cbn [negb orb].
    branches.
Qed.
Lemma mul_canonical a b : canonical a -> canonical b -> canonical (mul a b).
Proof.
  intros Ca Cb. assert (Sg : sign a * sign b = 1 \/ sign a * sign b = -1) by (destruct (canonical_sign a Ca) as [-> | ->], (canonical_sign b Cb) as [-> | ->]; cbn; auto).
  destruct (is_normal a) eqn:Na; [destruct (is_normal b) eqn:Nb|].
  - apply (mul_exact a b Ca Cb); apply normal_flags; assumption.
  - unfold mul. rewrite Na, Nb. cbn [negb orb].
    branches.
  - unfold mul. rewrite Na. cbn [negb orb].
    branches.
Qed.
Lemma round_canonical a e mode : canonical a -> e <= kMaxExp -> canonical (round_to_power_of_2 a e mode).
Proof.
  intros C H. destruct (is_normal a) eqn:N.
  - destruct (round_power a e mode C N H) as (n & _ & S & _). apply S.
  - rewrite round_special by assumption. exact C.
Qed.
Lemma ldexp_canonical a e : canonical a -> canonical (ldexp a e).
Proof.
  intros C. unfold ldexp. destruct (is_normal a) eqn:N; cbn [negb]; [|exact C]. cbv zeta.
  destruct (canonical_normal a C N) as (P & O & E & Pr). pose proof (num_bits_ge1 _ P).
  apply (canonicalize_stored (sign a) (bn a)); [apply canonical_sign, C|lia|]. unfold exp in *. kf. lia.
Qed.
Lemma of_int_canonical v : INT_MIN <= v <= INT_MAX -> canonical (of_int v).
Proof.
  intros H. destruct (Z.eq_dec v INT_MIN) as [-> |E]; [|apply of_int_exact; lia].
  unfold of_int. change (int_abs INT_MIN mod 2 ^ 64) with (18446744071562067968). change (0 <=? INT_MIN) with false. cbv iota.
  apply (canonicalize_stored (-1) 18446744071562067968 0); [auto|lia|kf; lia].
Qed.
Theorem operations_canonical a b mode e : canonical a -> canonical b ->
  canonical (neg a) /\ canonical (add a b) /\ canonical (sub a b) /\ canonical (mul a b) /\ canonical (abs a) /\
  canonical (fmax a b) /\ canonical (fmin a b) /\ canonical (fdim a b) /\ canonical (copysign a b) /\
  canonical (ldexp a e) /\ canonical (round_to_power_of_2 a 0 mode) /\ canonical (logb a).
Proof.
  intros Ca Cb. split; [apply neg_canonical, Ca|]. split; [apply sum_canonical; [exact Ca|exact Cb|apply canonical_sign, Cb]|].
  assert (CS : canonical (sub a b)) by (apply sum_canonical; [exact Ca|exact Cb|destruct (canonical_sign b Cb) as [-> | ->]; auto]).
  split; [exact CS|]. split; [apply mul_canonical; assumption|]. split; [apply abs_canonical, Ca|].
  split. { unfold fmax. repeat match goal with |- canonical (if ?c then _ else _) => destruct c end; assumption. }
  split. { unfold fmin. repeat match goal with |- canonical (if ?c then _ else _) => destruct c end; assumption. }
  split. { unfold fdim. destruct (leb a b); [apply of_int_canonical; unfold INT_MIN, INT_MAX; lia|exact CS]. }
  split; [apply copy_canonical; [apply canonical_sign, Cb|exact Ca]|]. split; [apply ldexp_canonical, Ca|].
  split; [apply round_canonical; [exact Ca|kf; lia]|].
  unfold logb. destruct (is_zero a); [apply canonical_inf; auto|]. destruct (is_inf a); [apply canonical_inf; auto|]. destruct (is_nan a) eqn:Na; [exact Ca|].
  destruct (is_normal a) eqn:N.
  - destruct (canonical_normal a Ca N) as (_ & _ & E & _). apply of_int_canonical. unfold INT_MIN, INT_MAX. kf. lia.
  - apply of_int_canonical. destruct (comparable_kind a Ca Na) as [H|[(s & _ & H)|(s & _ & H)]]; [congruence| |]; rewrite H; cbn; unfold exp; cbn; unfold INT_MIN, INT_MAX; kf; cbn [bn_exp bn signed_zero infinity num_bits Z.eqb]; lia.
Qed.

(** ** Witnesses *)
Lemma int_min_wrong : (value (of_int INT_MIN) == inject_Z (- (2 ^ 64 - 2 ^ 31)))%Q.
Proof.
  unfold of_int. change (int_abs INT_MIN mod 2 ^ 64) with (18446744071562067968). change (0 <=? INT_MIN) with false. cbv iota.
  destruct (small_exact (-1) 18446744071562067968 0 64 (or_intror eq_refl)) as (_ & _ & V & _); [split; [lia|reflexivity]|lia|lia|].
  rewrite V. change (pow2 0) with 1%Q. rewrite Qmult_1_r. reflexivity.
Qed.
Definition big_one : exactfloat := {| sign := 1; bn_exp := 0; bn := 1 |}.
Definition halfway : exactfloat := {| sign := 1; bn_exp := -1135; bn := 2 ^ 60 + 1 |}.
Lemma halfway_canonical : canonical halfway.
Proof.
  split; [left; reflexivity|]. right. cbn [bn halfway]. split; [reflexivity|]. split; [reflexivity|]. unfold exp, prec. cbn [bn bn_exp halfway].
  change (num_bits (2 ^ 60 + 1)) with 61. kf. lia.
Qed.
Lemma halfway_normal : is_normal halfway = true.
Proof. unfold is_normal. cbn [bn_exp halfway]. apply Z.ltb_lt. kf. lia. Qed.
Lemma halfway_double : to_double halfway = DFinite 1 0 (-1021).
Proof. vm_compute. reflexivity. Qed.
Lemma halfway_wrong : ~ nearest_double (value halfway) (sign halfway) (to_double halfway).
Proof.
  intros H. specialize (H (-1074)). rewrite (value_abs halfway halfway_canonical halfway_normal) in H. cbn [bn bn_exp halfway] in H.
  destruct H as (n & N0 & R & _ & D).
  - apply mag_ge; [reflexivity|]. change (num_bits (2 ^ 60 + 1)) with 61. lia.
  - apply mag_lt; [reflexivity|]. change (num_bits (2 ^ 60 + 1)) with 61. lia.
  - change (spacing (-1074)) with (-1074) in *.
    assert (Y : (Qabs (value halfway) * pow2 (- -1074) == inject_Z (2 ^ 60 + 1) * pow2 (-61))%Q).
    { rewrite (value_abs halfway halfway_canonical halfway_normal). cbn [bn bn_exp halfway]. rewrite <- Qmult_assoc, <- pow2_plus. reflexivity. }
    apply (rounded_comp _ _ _ _ Y) in R. destruct R as [R _].
    assert (P61 : (inject_Z (2 ^ 60 + 1) * pow2 (-61) == 1152921504606846977 # 2305843009213693952)%Q) by reflexivity.
    rewrite P61 in R. apply Qabs_Qle_condition in R. destruct R as [R1 R2].
    assert (n = 1).
    { assert (inject_Z n < inject_Z 2)%Q as U by (change (inject_Z 2) with 2%Q; lra). rewrite <- Zlt_Qlt in U.
      assert (inject_Z 0 < inject_Z n)%Q as L by (change (inject_Z 0) with 0%Q; lra). rewrite <- Zlt_Qlt in L. lia. }
    subst n. destruct D as (m & f & E & V).
    + apply mag_lt; [lia|]. change (num_bits 1) with 1. lia.
    + rewrite halfway_double in E. injection E as <- <-. change (inject_Z 0) with 0%Q in V. rewrite Qmult_0_l in V.
      assert (0 < inject_Z 1 * pow2 (-1074))%Q as P by (apply val_pos; lia). rewrite <- V in P. apply (Qlt_irrefl 0 P).
Qed.

Lemma half_abs_inv (x : Q) : (Qabs x <= 1 # 2)%Q -> (- (1 # 2) <= x)%Q /\ (x <= 1 # 2)%Q.
Proof. intros H. apply Qabs_Qle_condition in H. exact H. Qed.
Theorem rounded_unique mode y n n' : rounded mode y n -> rounded mode y n' -> n = n'.
Proof.
  assert (Z1 : forall a b, (inject_Z a < inject_Z b + 1)%Q -> a <= b).
  { intros a b H. change 1%Q with (inject_Z 1) in H. rewrite <- inject_Z_plus, <- Zlt_Qlt in H. lia. }
  assert (Half : forall a b, (Qabs (y - inject_Z a) <= 1 # 2)%Q -> (Qabs (y - inject_Z b) <= 1 # 2)%Q -> a < b -> b = a + 1 /\ (Qabs (y - inject_Z a) == 1 # 2)%Q /\ (Qabs (y - inject_Z b) == 1 # 2)%Q /\ (y == inject_Z a + (1 # 2))%Q).
  { intros a b Ha Hb L. destruct (half_abs_inv _ Ha). destruct (half_abs_inv _ Hb).
    assert (b <= a + 1) as U by (apply Z1; rewrite inject_Z_plus; change (inject_Z 1) with 1%Q; lra).
    assert (E : b = a + 1) by lia. split; [exact E|]. subst b. rewrite inject_Z_plus in *. change (inject_Z 1) with 1%Q in *.
    assert (V : (y == inject_Z a + (1 # 2))%Q) by lra. split; [|split; [|exact V]]; rewrite V.
    - setoid_replace (inject_Z a + (1 # 2) - inject_Z a)%Q with (1 # 2)%Q by ring. reflexivity.
    - setoid_replace (inject_Z a + (1 # 2) - (inject_Z a + 1))%Q with (- (1 # 2))%Q by ring. reflexivity. }
  destruct mode; cbn [rounded].
  - intros [A A'] [B B']. destruct (Z.lt_total n n') as [L|[E|L]]; [exfalso|exact E|exfalso].
    + destruct (Half n n' A B L) as (E & T1 & T2 & _). specialize (A' T1). specialize (B' T2). subst n'. rewrite Z.even_add, A' in B'. discriminate.
    + destruct (Half n' n B A L) as (E & T1 & T2 & _). specialize (B' T1). specialize (A' T2). subst n. rewrite Z.even_add, B' in A'. discriminate.
  - assert (AW : forall a, (y == inject_Z a + (1 # 2))%Q -> (Qabs y < Qabs (inject_Z a))%Q -> (Qabs y < Qabs (inject_Z (a + 1)))%Q -> False).
    { intros a V H1 H2. rewrite inject_Z_plus in H2. change (inject_Z 1) with 1%Q in H2. rewrite V in H1, H2.
      destruct (Z_lt_le_dec a 0) as [S|S].
      - assert (inject_Z a <= -1)%Q by (change (-1)%Q with (inject_Z (-1)); rewrite <- Zle_Qle; lia). rewrite !Qabs_neg in H2 by lra. lra.
      - assert (0 <= inject_Z a)%Q by (change 0%Q with (inject_Z 0); rewrite <- Zle_Qle; lia). rewrite !Qabs_pos in H1 by lra. lra. }
    intros [A A'] [B B']. destruct (Z.lt_total n n') as [L|[E|L]]; [exfalso|exact E|exfalso].
    + destruct (Half n n' A B L) as (E & T1 & T2 & V). subst n'. apply (AW n V (A' T1) (B' T2)).
    + destruct (Half n' n B A L) as (E & T1 & T2 & V). subst n. apply (AW n' V (B' T1) (A' T2)).
  - intros [A A'] [B B']. destruct (Qlt_le_dec y 0) as [S|S].
    + destruct (A' (Qlt_le_weak _ _ S)), (B' (Qlt_le_weak _ _ S)). assert (n <= n') by (apply Z1; lra). assert (n' <= n) by (apply Z1; lra). lia.
    + destruct (A S), (B S). assert (n <= n') by (apply Z1; lra). assert (n' <= n) by (apply Z1; lra). lia.
  - intros [A A'] [B B']. destruct (Qlt_le_dec y 0) as [S|S].
    + destruct (A' (Qlt_le_weak _ _ S)), (B' (Qlt_le_weak _ _ S)). assert (n <= n') by (apply Z1; lra). assert (n' <= n) by (apply Z1; lra). lia.
    + destruct (A S), (B S). assert (n <= n') by (apply Z1; lra). assert (n' <= n) by (apply Z1; lra). lia.
  - intros [A A'] [B B']. assert (n <= n') by (apply Z1; lra). assert (n' <= n) by (apply Z1; lra). lia.
  - intros [A A'] [B B']. assert (n <= n') by (apply Z1; lra). assert (n' <= n) by (apply Z1; lra). lia.
Qed.
