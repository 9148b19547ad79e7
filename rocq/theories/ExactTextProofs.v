(** Rounding to decimal digits. *)
From Coq Require Import ZArith QArith Qabs Qpower List Lqa Lia.
From Verif Require Import Base ExactFloatModel ExactFloatSpec ExactFloatLib ExactFloatProofs
  ExactTextModel ExactTextSpec ExactTextDigits.
Import ListNotations.
Local Open Scope Q_scope.

(** ** Powers of ten *)
Lemma pow10_pos e : 0 < pow10 e.
Proof. apply Qpower_0_lt. reflexivity. Qed.
Lemma pow10_plus a b : pow10 (a + b) == pow10 a * pow10 b.
Proof. apply Qpower_plus. discriminate. Qed.
Lemma pow10_Z n : (0 <= n)%Z -> pow10 n == inject_Z (10 ^ n).
Proof. intros H. unfold pow10. rewrite Zpower_Qpower by exact H. reflexivity. Qed.
Lemma pow10_le a b : (a <= b)%Z -> pow10 a <= pow10 b.
Proof.
  intros H. replace b with (a + (b - a))%Z by lia. rewrite pow10_plus, (pow10_Z (b - a)) by lia.
  pose proof (pow10_pos a) as P.
  assert (1 <= inject_Z (10 ^ (b - a))) as G.
  { change 1 with (inject_Z 1). rewrite <- Zle_Qle. pose proof (Z.pow_pos_nonneg 10 (b - a)). lia. }
  setoid_replace (pow10 a) with (pow10 a * 1) at 1 by ring. rewrite !(Qmult_comm (pow10 a)).
  apply Qmult_le_compat_r; [exact G|lra].
Qed.
Lemma pow10_lt a b : (a < b)%Z -> pow10 a < pow10 b.
Proof.
  intros H. apply Qlt_le_trans with (pow10 (a + 1)); [|apply pow10_le; lia]. rewrite pow10_plus.
  change (pow10 1) with 10. pose proof (pow10_pos a). lra.
Qed.
Lemma pow10_le_inv a b : pow10 a <= pow10 b -> (a <= b)%Z.
Proof. intros H. destruct (Z.le_gt_cases a b) as [G|G]; [exact G|]. apply pow10_lt in G. lra. Qed.
Lemma pow10_lt_inv a b : pow10 a < pow10 b -> (a < b)%Z.
Proof. intros H. destruct (Z.lt_ge_cases a b) as [G|G]; [exact G|]. apply pow10_le in G. lra. Qed.
Lemma decades_unique v k k' : decades v k -> decades v k' -> k = k'.
Proof.
  intros [A B] [A' B'].
  assert (k - 1 < k')%Z by (apply pow10_lt_inv; lra). assert (k' - 1 < k)%Z by (apply pow10_lt_inv; lra). lia.
Qed.

(** ** The decimal form of the value *)
Definition scaled (a : exactfloat) : Z * Z :=
  if (0 <=? bn_exp a)%Z then (Z.shiftl (bn a) (bn_exp a), 0%Z) else ((5 ^ (- bn_exp a) * bn a)%Z, bn_exp a).

Lemma scaled_value a : canonical a -> is_normal a = true ->
  (0 < fst (scaled a))%Z /\ Qabs (value a) == inject_Z (fst (scaled a)) * pow10 (snd (scaled a)).
Proof.
  intros C N. rewrite (value_abs a C N). destruct (canonical_normal a C N) as (B & _).
  unfold scaled. destruct (Z.leb_spec 0 (bn_exp a)) as [H|H]; cbn [fst snd].
  - rewrite Z.shiftl_mul_pow2 by exact H. split.
    + apply Z.mul_pos_pos; [exact B|apply Z.pow_pos_nonneg; lia].
    + rewrite inject_Z_mult, <- pow2_Z by exact H. change (pow10 0) with 1. ring.
  - split.
    + apply Z.mul_pos_pos; [apply Z.pow_pos_nonneg; lia|exact B].
    + rewrite inject_Z_mult. set (k := (- bn_exp a)%Z). replace (bn_exp a) with (- k)%Z by lia.
      assert (Hk : (0 <= k)%Z) by lia. clearbody k.
      assert (X : inject_Z (5 ^ k) * pow10 (- k) * pow2 k == 1).
      { rewrite (pow2_Z k) by exact Hk.
        setoid_replace (inject_Z (5 ^ k) * pow10 (- k) * inject_Z (2 ^ k))
          with (inject_Z (5 ^ k) * inject_Z (2 ^ k) * pow10 (- k)) by ring.
        rewrite <- inject_Z_mult, <- Z.pow_mul_l. change (5 * 2)%Z with 10%Z. rewrite <- (pow10_Z k) by exact Hk.
        rewrite <- pow10_plus. replace (k + - k)%Z with 0%Z by lia. reflexivity. }
      assert (Y : pow2 k * pow2 (- k) == 1).
      { rewrite <- pow2_plus. replace (k + - k)%Z with 0%Z by lia. reflexivity. }
      setoid_replace (inject_Z (bn a) * pow2 (- k)) with (inject_Z (bn a) * pow2 (- k) * (inject_Z (5 ^ k) * pow10 (- k) * pow2 k)) by (rewrite X; ring).
      setoid_replace (inject_Z (bn a) * pow2 (- k) * (inject_Z (5 ^ k) * pow10 (- k) * pow2 k))
        with (inject_Z (bn a) * (inject_Z (5 ^ k) * pow10 (- k)) * (pow2 k * pow2 (- k))) by ring.
      rewrite Y. ring.
Qed.

(** ** Rounding *)
Lemma printed_integer n : printed (inject_Z n) n.
Proof.
  split.
  - intros m [E (j & J & H)]. exfalso.
    setoid_replace (inject_Z m + inject_Z j * (1 # 10)) with (inject_Z (10 * m + j) * (1 # 10)) in H
      by (rewrite inject_Z_plus, inject_Z_mult; change (inject_Z 10) with 10; ring).
    assert (X : inject_Z (10 * n) == inject_Z (10 * m + j)).
    { rewrite inject_Z_mult, H. change (inject_Z 10) with 10. ring. }
    apply (proj1 (inject_Z_injective _ _)) in X. lia.
  - intros _. cbn [rounded]. setoid_replace (inject_Z n - inject_Z n) with 0 by ring. cbn. split; [discriminate|].
    intros H. discriminate.
Qed.

Lemma exceptional_wd y y' n : y == y' -> exceptional y n -> exceptional y' n.
Proof. intros E [A (j & J & H)]. split; [exact A|]. exists j. split; [exact J|]. rewrite <- E. exact H. Qed.
Lemma printed_wd y y' n : y == y' -> printed y n -> printed y' n.
Proof.
  intros E [A B]. split.
  - intros m H. apply A. exact (exceptional_wd _ _ _ (Qeq_sym _ _ E) H).
  - intros H. assert (R : rounded kRoundTiesToEven y n) by (apply B; intros m G; exact (H m (exceptional_wd _ _ _ E G))).
    cbn [rounded] in *. assert (X : Qabs (y - inject_Z n) == Qabs (y' - inject_Z n)) by (apply Qabs_wd; rewrite E; reflexivity).
    rewrite <- X. exact R.
Qed.

Lemma inject_le a b : (a <= b)%Z -> inject_Z a <= inject_Z b.
Proof. intros H. rewrite <- Zle_Qle. exact H. Qed.

(** [y = kept + (c + f) / 10] with a digit [c] and [0 <= f < 1]. *)
Lemma printed_cut y kept c f : (0 <= c <= 9)%Z -> 0 <= f < 1 -> y == inject_Z kept + (inject_Z c + f) * (1 # 10) ->
  printed y (if (5 <=? c)%Z && (Z.odd kept || negb (Qeq_bool f 0)) then kept + 1 else kept)%Z.
Proof.
  intros Hc Hf Hy.
  assert (Hci : inject_Z 0 <= inject_Z c <= inject_Z 9) by (split; apply inject_le; lia).
  change (inject_Z 0) with 0 in Hci. change (inject_Z 9) with 9 in Hci.
  assert (Ex : forall m, exceptional y m -> m = kept /\ f == 0 /\ (6 <= c)%Z /\ Z.even m = true).
  { intros m [E (j & J & H)]. rewrite Hy in H.
    assert (Hji : inject_Z 6 <= inject_Z j <= inject_Z 9) by (split; apply inject_le; lia).
    change (inject_Z 6) with 6 in Hji. change (inject_Z 9) with 9 in Hji.
    assert (m = kept).
    { assert (A : inject_Z m < inject_Z (kept + 1)) by (rewrite inject_Z_plus; change (inject_Z 1) with 1; lra).
      assert (B : inject_Z kept < inject_Z (m + 1)) by (rewrite inject_Z_plus; change (inject_Z 1) with 1; lra).
      rewrite <- Zlt_Qlt in A, B. lia. }
    subst m.
    assert (X : inject_Z c + f == inject_Z j) by lra.
    assert (c = j).
    { assert (A : inject_Z c <= inject_Z j) by lra.
      assert (B : inject_Z j < inject_Z (c + 1)) by (rewrite inject_Z_plus; change (inject_Z 1) with 1; lra).
      rewrite <- Zlt_Qlt in B. rewrite <- Zle_Qle in A. lia. }
    subst j. split; [reflexivity|]. split; [lra|]. split; [lia|exact E]. }
  split.
  - intros m H. destruct (Ex m H) as (-> & F & C6 & Ev).
    assert (Fb : Qeq_bool f 0 = true) by (apply Qeq_bool_iff; exact F). rewrite Fb.
    rewrite <- Z.negb_even, Ev. cbn [negb orb]. rewrite Bool.andb_false_r. reflexivity.
  - intros Nex. cbn [rounded].
    destruct (Z.leb_spec 5 c) as [C5|C5]; cbn [andb].
    + assert (C5q : inject_Z 5 <= inject_Z c) by (apply inject_le; exact C5). change (inject_Z 5) with 5 in C5q.
      destruct (Z.odd kept || negb (Qeq_bool f 0)) eqn:U.
      * rewrite inject_Z_plus. change (inject_Z 1) with 1.
        assert (R : Qabs (y - (inject_Z kept + 1)) == 1 - (inject_Z c + f) * (1 # 10)).
        { rewrite Qabs_neg by (rewrite Hy; lra). rewrite Hy. ring. }
        rewrite R. split; [lra|]. intros T.
        assert (F0 : f == 0) by lra. assert (Fb : Qeq_bool f 0 = true) by (apply Qeq_bool_iff; exact F0).
        rewrite Fb in U. cbn [negb orb] in U. rewrite Bool.orb_false_r in U.
        rewrite Z.even_add, <- Z.negb_odd, U. reflexivity.
      * apply Bool.orb_false_iff in U. destruct U as [U1 U2]. apply Bool.negb_false_iff, Qeq_bool_iff in U2.
        destruct (Z.eq_dec c 5) as [->|C6].
        -- assert (R : Qabs (y - inject_Z kept) == 1 # 2).
           { rewrite Qabs_pos by (rewrite Hy; lra). rewrite Hy, U2. change (inject_Z 5) with 5. ring. }
           rewrite R. split; [apply Qle_refl|]. intros _. rewrite <- Z.negb_odd, U1. reflexivity.
        -- exfalso. apply (Nex kept). split; [rewrite <- Z.negb_odd, U1; reflexivity|].
           exists c. split; [lia|]. rewrite Hy, U2. ring.
    + assert (C4 : inject_Z c <= inject_Z 4) by (apply inject_le; lia). change (inject_Z 4) with 4 in C4.
      assert (R : Qabs (y - inject_Z kept) == (inject_Z c + f) * (1 # 10)).
      { rewrite Qabs_pos by (rewrite Hy; lra). rewrite Hy. ring. }
      rewrite R. split; [lra|]. intros T. lra.
Qed.

(** ** The digits *)
Definition leading (ds : list Z) : Prop := (10 ^ (len ds - 1) <= number ds)%Z.
(** The digits kept, and the exponent of the last one. *)
Definition kept_digits (a : exactfloat) (max_digits : Z) : list Z * Z :=
  let '(n, n_exp10) := scaled a in
  let all_digits := dec n in
  let num_digits := Z.of_nat (length all_digits) in
  if (num_digits <=? max_digits)%Z then (all_digits, n_exp10)
  else
    let k := Z.to_nat max_digits in
    let kept := firstn k all_digits in
    let up := (chr5 <=? nth k all_digits 0)%Z
              && (Z.odd (nth (k - 1) all_digits 0%Z) || some_nonzero (skipn (k + 1) all_digits)) in
    (if up then increment_digits kept else kept, (n_exp10 + (num_digits - max_digits))%Z).
Lemma get_decimal_digits_kept a max_digits :
  get_decimal_digits a max_digits =
  (let '(digits, e) := kept_digits a max_digits in
   (strip digits, e + (len digits - len (strip digits)) + len (strip digits)))%Z.
Proof.
  unfold get_decimal_digits, kept_digits, scaled. destruct (0 <=? bn_exp a)%Z.
  - cbv zeta. destruct (_ <=? max_digits)%Z; reflexivity.
  - cbv zeta. destruct (_ <=? max_digits)%Z; reflexivity.
Qed.

Lemma Q_cut kept c rest t : (0 <= t)%Z -> inject_Z (kept * 10 ^ (t + 1) + (c * 10 ^ t + rest)) * pow10 (- (t + 1))
  == inject_Z kept + (inject_Z c + inject_Z rest * pow10 (- t)) * (1 # 10).
Proof.
  intros Ht. rewrite !inject_Z_plus, !inject_Z_mult.
  rewrite <- (pow10_Z (t + 1)), <- (pow10_Z t) by lia.
  assert (A : pow10 (t + 1) * pow10 (- (t + 1)) == 1).
  { rewrite <- pow10_plus. replace (t + 1 + - (t + 1))%Z with 0%Z by lia. reflexivity. }
  assert (B : pow10 t * pow10 (- t) == 1).
  { rewrite <- pow10_plus. replace (t + - t)%Z with 0%Z by lia. reflexivity. }
  assert (D : pow10 (- (t + 1)) == pow10 (- t) * (1 # 10)).
  { replace (- (t + 1))%Z with (- t + -1)%Z by lia. rewrite pow10_plus. reflexivity. }
  setoid_replace ((inject_Z kept * pow10 (t + 1) + (inject_Z c * pow10 t + inject_Z rest)) * pow10 (- (t + 1)))
    with (inject_Z kept * (pow10 (t + 1) * pow10 (- (t + 1))) + (inject_Z c * pow10 t + inject_Z rest) * pow10 (- (t + 1))) by ring.
  rewrite A, D.
  setoid_replace ((inject_Z c * pow10 t + inject_Z rest) * (pow10 (- t) * (1 # 10)))
    with ((inject_Z c * (pow10 t * pow10 (- t)) + inject_Z rest * pow10 (- t)) * (1 # 10)) by ring.
  rewrite B. ring.
Qed.

Lemma kept_spec a d k : canonical a -> is_normal a = true -> (1 <= d)%Z -> decades (Qabs (value a)) k ->
  exists n, printed (Qabs (value a) * pow10 (d - k)) n /\ (10 ^ (d - 1) <= n)%Z /\ (n <= 10 ^ d)%Z
    /\ let '(ds, e) := kept_digits a d in
       Forall digit ds /\ (0 < number ds)%Z /\ leading ds
       /\ inject_Z (number ds) * pow10 e == inject_Z n * pow10 (k - d)
       /\ (len ds <= d \/ number ds mod 10 = 0)%Z /\ (len ds <= d + 1)%Z.
Proof.
  intros C N Hd K. destruct (scaled_value a C N) as [P V]. unfold kept_digits. destruct (scaled a) as [m e]. cbn [fst snd] in P, V.
  destruct (dec_spec m P) as (F & Nm & Ne & Lo & Hi).
  set (all := dec m) in *. set (num := len all) in *.
  assert (Num : (1 <= num)%Z) by (unfold num; destruct all; [contradiction|cbn [length]; lia]).
  assert (Ke : k = (num + e)%Z).
  { apply (decades_unique (Qabs (value a))); [exact K|]. unfold decades. rewrite V. split.
    - replace (num + e - 1)%Z with ((num - 1) + e)%Z by lia. rewrite pow10_plus, (pow10_Z (num - 1)) by lia.
      apply Qmult_le_compat_r; [apply inject_le; exact Lo|pose proof (pow10_pos e); lra].
    - rewrite pow10_plus, (pow10_Z num) by lia. apply Qmult_lt_r; [apply pow10_pos|]. rewrite <- Zlt_Qlt. exact Hi. }
  subst k. destruct (Z.leb_spec num d) as [H|H].
  - (* exact *)
    exists (m * 10 ^ (d - num))%Z.
    assert (Y : Qabs (value a) * pow10 (d - (num + e)) == inject_Z (m * 10 ^ (d - num))).
    { rewrite V, inject_Z_mult, <- (pow10_Z (d - num)) by lia.
      setoid_replace (inject_Z m * pow10 e * pow10 (d - (num + e))) with (inject_Z m * (pow10 e * pow10 (d - (num + e)))) by ring.
      rewrite <- pow10_plus. replace (e + (d - (num + e)))%Z with (d - num)%Z by lia. reflexivity. }
    assert (Pd : (0 < 10 ^ (d - num))%Z) by (apply Z.pow_pos_nonneg; lia).
    split; [|split; [|split]].
    + apply (printed_wd _ _ _ (Qeq_sym _ _ Y)). apply printed_integer.
    + replace (d - 1)%Z with ((num - 1) + (d - num))%Z by lia. rewrite Z.pow_add_r by lia. nia.
    + replace d with (num + (d - num))%Z at 2 by lia. rewrite Z.pow_add_r by lia. nia.
    + split; [exact F|]. rewrite Nm. split; [exact P|]. split; [unfold leading; fold num; rewrite Nm; exact Lo|].
      split; [|split; [left; exact H|lia]].
      rewrite inject_Z_mult, <- (pow10_Z (d - num)) by lia.
      setoid_replace (inject_Z m * pow10 (d - num) * pow10 (num + e - d)) with (inject_Z m * (pow10 (d - num) * pow10 (num + e - d))) by ring.
      rewrite <- pow10_plus. replace (d - num + (num + e - d))%Z with e by lia. reflexivity.
  - (* rounded *)
    set (t := (num - d - 1)%Z). assert (Ht : (0 <= t)%Z) by (unfold t; lia).
    assert (Lk : (Z.to_nat d < length all)%nat) by (unfold num in H; lia).
    pose proof (cut all (Z.to_nat d) Lk) as Cut.
    set (kept := firstn (Z.to_nat d) all) in *. set (c := nth (Z.to_nat d) all 0%Z) in *.
    set (rest := skipn (Z.to_nat d + 1) all) in *.
    assert (Fs : Forall digit kept /\ digit c /\ Forall digit rest).
    { rewrite Cut in F. apply Forall_app in F. destruct F as [F1 F2]. inversion F2 as [|? ? X1 X2]. split; [exact F1|]. split; assumption. }
    destruct Fs as (Fk & Fc & Fr). unfold digit in Fc.
    assert (Lkept : len kept = d) by (unfold kept; rewrite firstn_length; lia).
    assert (Lrest : len rest = t) by (unfold rest, t, num; rewrite skipn_length; lia).
    pose proof (number_range _ Fr) as Rr. rewrite Lrest in Rr. pose proof (number_range _ Fk) as Rk. rewrite Lkept in Rk.
    assert (Pt : (0 < 10 ^ t)%Z) by (apply Z.pow_pos_nonneg; lia).
    assert (Em : m = (number kept * 10 ^ (t + 1) + ((c - 48) * 10 ^ t + number rest))%Z).
    { rewrite <- Nm. rewrite Cut, number_app, number_cons, Lrest. cbn [length]. rewrite Nat2Z.inj_succ, Lrest.
      replace (Z.succ t) with (t + 1)%Z by lia. reflexivity. }
    assert (Y : Qabs (value a) * pow10 (d - (num + e)) ==
       inject_Z (number kept) + (inject_Z (c - 48) + inject_Z (number rest) * pow10 (- t)) * (1 # 10)).
    { rewrite <- (Q_cut _ _ _ t Ht), <- Em, V.
      setoid_replace (inject_Z m * pow10 e * pow10 (d - (num + e))) with (inject_Z m * (pow10 e * pow10 (d - (num + e)))) by ring.
      rewrite <- pow10_plus. replace (e + (d - (num + e)))%Z with (- (t + 1))%Z by (unfold t; lia). reflexivity. }
    assert (Bt : inject_Z (10 ^ t) * pow10 (- t) == 1).
    { rewrite <- (pow10_Z t Ht), <- pow10_plus. replace (t + - t)%Z with 0%Z by lia. reflexivity. }
    assert (Hf : 0 <= inject_Z (number rest) * pow10 (- t) < 1).
    { pose proof (pow10_pos (- t)) as Pq. split.
      - apply Qmult_le_0_compat; [change 0 with (inject_Z 0); apply inject_le; lia|lra].
      - rewrite <- Bt. apply Qmult_lt_r; [exact Pq|]. rewrite <- Zlt_Qlt. lia. }
    assert (Fc9 : (0 <= c - 48 <= 9)%Z) by lia.
    pose proof (printed_cut _ _ _ _ Fc9 Hf Y) as Pr.
    assert (Odd : Z.odd (nth (Z.to_nat d - 1) all 0%Z) = Z.odd (number kept)).
    { destruct (firstn_last all (Z.to_nat d)) as (l & El); [lia|]. fold kept in El. rewrite El, number_app, number_one.
      change (10 ^ len [nth (Z.to_nat d - 1) all 0])%Z with 10%Z. rewrite Z.odd_add, Z.odd_mul.
      change (Z.odd 10) with false. rewrite Bool.andb_false_r. rewrite Z.odd_sub. change (Z.odd 48) with false.
      rewrite Bool.xorb_false_l, Bool.xorb_false_r. reflexivity. }
    assert (Nz : some_nonzero rest = negb (Qeq_bool (inject_Z (number rest) * pow10 (- t)) 0)).
    { rewrite (some_nonzero_spec _ Fr). f_equal. apply Bool.eq_true_iff_eq. rewrite Z.eqb_eq, Qeq_bool_iff.
      pose proof (pow10_pos (- t)) as Pq. split; [intros ->; ring|]. intros X.
      apply Qmult_integral in X. destruct X as [X|X]; [|lra]. change 0 with (inject_Z 0) in X.
      apply (proj1 (inject_Z_injective _ _)) in X. exact X. }
    assert (Five : (chr5 <=? c)%Z = (5 <=? c - 48)%Z).
    { unfold chr5. destruct (Z.leb_spec 53 c), (Z.leb_spec 5 (c - 48)); try reflexivity; lia. }
    rewrite Five, Odd, Nz. set (up := ((5 <=? c - 48)%Z && _)) in *.
    exists (if up then number kept + 1 else number kept)%Z. split; [exact Pr|].
    assert (LowK : (10 ^ (d - 1) <= number kept)%Z).
    { destruct (Z.le_gt_cases (10 ^ (d - 1)) (number kept)) as [G|G]; [exact G|]. exfalso.
      assert (Lo' : (10 ^ (num - 1) <= m)%Z) by exact Lo.
      replace (num - 1)%Z with ((d - 1) + (t + 1))%Z in Lo' by (unfold t; lia). rewrite Z.pow_add_r in Lo' by lia.
      assert (m < 10 ^ (d - 1) * 10 ^ (t + 1))%Z; [|lia]. rewrite Em. rewrite (Z.pow_add_r 10 t 1) by lia.
      change (10 ^ 1)%Z with 10%Z. nia. }
    assert (Pd : (0 < 10 ^ (d - 1))%Z) by (apply Z.pow_pos_nonneg; lia).
    split; [destruct up; lia|]. split; [destruct up; lia|].
    replace (num + e - d)%Z with (e + (num - d))%Z by lia.
    destruct up.
    + destruct (increment_spec _ Fk) as (A & B & D). rewrite B. split; [exact A|]. split; [lia|].
      rewrite Lkept in D. destruct D as [D|[D1 D2]].
      * split; [unfold leading; rewrite D, Lkept, B; lia|]. split; [reflexivity|]. split; [left; lia|lia].
      * assert (L1 : len (increment_digits kept) = (d + 1)%Z) by lia.
        split; [unfold leading; rewrite L1, D2; replace (d + 1 - 1)%Z with d by lia; lia|].
        split; [reflexivity|]. split; [|lia]. right. rewrite <- B, D2.
        replace d with (Z.succ (d - 1)) by lia. rewrite Z.pow_succ_r, Z.mul_comm by lia. apply Z_mod_mult.
    + split; [exact Fk|]. split; [lia|]. split; [unfold leading; rewrite Lkept; lia|]. split; [reflexivity|].
      split; [left; lia|lia].
Qed.

Lemma digits_spec a d k : canonical a -> is_normal a = true -> (1 <= d)%Z -> decades (Qabs (value a)) k ->
  exists n, printed (Qabs (value a) * pow10 (d - k)) n /\ (10 ^ (d - 1) <= n)%Z /\ (n <= 10 ^ d)%Z
    /\ let '(ds, x) := get_decimal_digits a d in
       Forall digit ds /\ ds <> [] /\ leading ds /\ (len ds <= d)%Z /\ (number ds mod 10 <> 0)%Z
       /\ inject_Z (number ds) * pow10 (x - len ds) == inject_Z n * pow10 (k - d).
Proof.
  intros C N Hd K. destruct (kept_spec a d k C N Hd K) as (n & Pr & N1 & N2 & R).
  exists n. split; [exact Pr|]. split; [exact N1|]. split; [exact N2|].
  rewrite get_decimal_digits_kept. destruct (kept_digits a d) as [ds e]. destruct R as (F & P & L & V & M & Mx).
  destruct (strip_number ds F P) as (F' & Ne & Le & Nn & M'). set (st := strip ds) in *.
  split; [exact F'|]. split; [exact Ne|].
  assert (S1 : (1 <= len st)%Z) by (destruct st; [contradiction|cbn [length]; lia]).
  assert (Pj : (0 < 10 ^ (len ds - len st))%Z) by (apply Z.pow_pos_nonneg; lia).
  split; [|split; [|split; [exact M'|]]].
  - unfold leading in *. rewrite Nn in L. replace (len ds - 1)%Z with ((len st - 1) + (len ds - len st))%Z in L by lia.
    rewrite Z.pow_add_r in L by lia. nia.
  - destruct (Z.le_gt_cases (len st) d) as [G|G]; [exact G|]. exfalso.
    destruct M as [M|M]; [lia|]. assert (E : (len ds - len st = 0)%Z) by lia. rewrite E in Nn.
    rewrite Nn in M. change (10 ^ 0)%Z with 1%Z in M. rewrite Z.mul_1_r in M. contradiction.
  - rewrite <- V, Nn, inject_Z_mult, <- (pow10_Z (len ds - len st)) by lia.
    replace (e + (len ds - len st) + len st - len st)%Z with ((len ds - len st) + e)%Z by lia. rewrite pow10_plus. ring.
Qed.
