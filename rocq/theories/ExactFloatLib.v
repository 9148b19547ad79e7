(** Powers of two and bit counts. *)
From Coq Require Import ZArith QArith Qabs Qpower Lqa Lia.
From Verif Require Import ExactFloatModel ExactFloatSpec.
Local Open Scope Q_scope.

Lemma pow2_pos e : 0 < pow2 e.
Proof. apply Qpower_0_lt. reflexivity. Qed.
Lemma pow2_plus a b : pow2 (a + b) == pow2 a * pow2 b.
Proof. apply Qpower_plus. discriminate. Qed.
Lemma pow2_Z n : (0 <= n)%Z -> pow2 n == inject_Z (2 ^ n).
Proof. intros H. unfold pow2. rewrite Zpower_Qpower by exact H. reflexivity. Qed.
Lemma pow2_0 : pow2 0 == 1. Proof. reflexivity. Qed.
Lemma pow2_1 : pow2 1 == 2. Proof. reflexivity. Qed.

(** Moving a factor between mantissa and exponent. *)
Lemma shift_val m e e' : (e' <= e)%Z -> inject_Z m * pow2 e == inject_Z (m * 2 ^ (e - e')) * pow2 e'.
Proof.
  intros H. replace e with ((e - e') + e')%Z at 1 by lia. rewrite pow2_plus, pow2_Z by lia.
  rewrite inject_Z_mult. ring.
Qed.
Lemma val_lt m m' e : inject_Z m * pow2 e < inject_Z m' * pow2 e <-> (m < m')%Z.
Proof. rewrite Qmult_lt_r by apply pow2_pos. rewrite <- Zlt_Qlt. reflexivity. Qed.
Lemma val_le m m' e : inject_Z m * pow2 e <= inject_Z m' * pow2 e <-> (m <= m')%Z.
Proof. rewrite Qmult_le_r by apply pow2_pos. rewrite <- Zle_Qle. reflexivity. Qed.
Lemma val_eq m m' e : inject_Z m * pow2 e == inject_Z m' * pow2 e <-> m = m'.
Proof.
  split; [|intros ->; reflexivity]. intros H.
  apply Qmult_inj_r in H; [|pose proof (pow2_pos e); lra]. apply inject_Z_injective. exact H.
Qed.
Lemma val_pos m e : 0 < inject_Z m * pow2 e <-> (0 < m)%Z.
Proof. rewrite <- (val_lt 0 m e). setoid_replace (inject_Z 0 * pow2 e) with 0 by ring. reflexivity. Qed.
Lemma val_neg m e : inject_Z m * pow2 e < 0 <-> (m < 0)%Z.
Proof. rewrite <- (val_lt m 0 e). setoid_replace (inject_Z 0 * pow2 e) with 0 by ring. reflexivity. Qed.
Lemma val_abs m e : Qabs (inject_Z m * pow2 e) == inject_Z (Z.abs m) * pow2 e.
Proof.
  rewrite Qabs_Qmult. rewrite (Qabs_pos (pow2 e)) by (apply Qlt_le_weak, pow2_pos).
  apply Qmult_comp; [|reflexivity]. unfold Qabs, inject_Z. reflexivity.
Qed.
Lemma pow2_as e e' : (e' <= e)%Z -> pow2 e == inject_Z (2 ^ (e - e')) * pow2 e'.
Proof. intros H. rewrite <- (Z.mul_1_l (2 ^ (e - e'))). rewrite <- shift_val by exact H. change (inject_Z 1) with 1. ring. Qed.

Local Open Scope Z_scope.
Lemma num_bits_pos m : 0 < m -> num_bits m = Z.log2 m + 1.
Proof. intros H. unfold num_bits. destruct (Z.eqb_spec m 0); [lia|]. rewrite Z.abs_eq by lia. reflexivity. Qed.
Lemma num_bits_bounds m : 0 < m -> 2 ^ (num_bits m - 1) <= m < 2 ^ num_bits m.
Proof.
  intros H. rewrite num_bits_pos by exact H. pose proof (Z.log2_spec m H).
  replace (Z.log2 m + 1 - 1) with (Z.log2 m) by lia. replace (Z.log2 m + 1) with (Z.succ (Z.log2 m)) by lia. assumption.
Qed.
Lemma num_bits_ge1 m : 0 < m -> 1 <= num_bits m.
Proof. intros H. rewrite num_bits_pos by exact H. pose proof (Z.log2_nonneg m). lia. Qed.
Lemma num_bits_le m n : 0 < m -> 0 <= n -> num_bits m <= n <-> m < 2 ^ n.
Proof.
  intros H Hn. rewrite num_bits_pos by exact H. rewrite Z.log2_lt_pow2 by exact H. lia.
Qed.
Lemma num_bits_shift m k : 0 < m -> 0 <= k -> num_bits (m * 2 ^ k) = num_bits m + k.
Proof.
  intros H Hk. assert (0 < 2 ^ k) by (apply Z.pow_pos_nonneg; lia).
  rewrite !num_bits_pos by nia. rewrite Z.log2_mul_pow2 by assumption. lia.
Qed.

Lemma low_zero_spec m : 0 < m -> 0 <= low_zero_bits m /\
  exists o, Z.odd o = true /\ 0 < o /\ m = o * 2 ^ low_zero_bits m /\ Z.shiftr m (low_zero_bits m) = o.
Proof.
  destruct m as [|p|p]; try lia. intros _. cbn [low_zero_bits].
  induction p as [p IH|p IH|].
  - cbn [low_zero_bits_pos]. split; [lia|]. exists (Z.pos p~1). repeat split; try reflexivity; lia.
  - destruct IH as (H0 & o & Ho & Hp & E & S).
    change (low_zero_bits_pos p~0) with (1 + low_zero_bits_pos p). split; [lia|]. exists o. split; [exact Ho|]. split; [exact Hp|].
    assert (E' : Z.pos p~0 = o * 2 ^ (1 + low_zero_bits_pos p)).
    { rewrite Z.pow_add_r by lia. change (2 ^ 1) with 2. rewrite Pos2Z.inj_xO. rewrite E at 1. lia. }
    split; [exact E'|]. rewrite E' at 1. rewrite Z.shiftr_div_pow2 by lia. apply Z.div_mul. apply Z.pow_nonzero; lia.
  - cbn [low_zero_bits_pos]. split; [lia|]. exists 1. repeat split; try reflexivity; lia.
Qed.
Lemma low_zero_odd m : 0 < m -> Z.odd m = true -> low_zero_bits m = 0.
Proof.
  intros H Ho. destruct m as [|p|p]; try lia. destruct p; try reflexivity. discriminate.
Qed.
Lemma low_zero_even m : 0 < m -> Z.odd m = false -> 0 < low_zero_bits m.
Proof.
  intros H Ho. destruct (low_zero_spec m H) as (H0 & o & Hodd & _ & E & _).
  destruct (Z.eq_dec (low_zero_bits m) 0) as [Z0|Z0]; [|lia].
  rewrite Z0 in E. rewrite Z.pow_0_r, Z.mul_1_r in E. congruence.
Qed.
(** Fewer low zero bits than [k] means not divisible by 2^k. *)
Lemma low_zero_lt m k : 0 < m -> 0 <= k -> low_zero_bits m < k <-> m mod 2 ^ k <> 0.
Proof.
  intros H Hk. destruct (low_zero_spec m H) as (H0 & o & Ho & Hp & E & _).
  assert (P : 0 < 2 ^ k) by (apply Z.pow_pos_nonneg; lia). split.
  - intros L C. apply Z.mod_divide in C; [|lia]. destruct C as [q Hq].
    rewrite E in Hq at 1. replace k with ((k - low_zero_bits m) + low_zero_bits m) in Hq at 1 by lia.
    rewrite Z.pow_add_r, Z.mul_assoc in Hq by lia. apply Z.mul_cancel_r in Hq; [|apply Z.pow_nonzero; lia].
    rewrite Hq in Ho. rewrite Z.odd_mul in Ho.
    replace (k - low_zero_bits m) with (Z.succ (k - low_zero_bits m - 1)) in Ho by lia.
    rewrite Z.pow_succ_r, Z.odd_mul in Ho by lia. cbn in Ho. rewrite Bool.andb_false_r in Ho. discriminate.
  - intros C. destruct (Z_lt_le_dec (low_zero_bits m) k) as [L|L]; [exact L|]. exfalso. apply C.
    rewrite E. replace (low_zero_bits m) with ((low_zero_bits m - k) + k) by lia. rewrite Z.pow_add_r, Z.mul_assoc by lia. apply Z.mod_mul. lia.
Qed.
