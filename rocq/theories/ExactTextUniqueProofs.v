(** Different numbers are printed differently. *)
From Coq Require Import ZArith QArith Qabs Qpower List Lqa Lia.
From Verif Require Import Base ExactFloatModel ExactFloatSpec ExactFloatLib ExactFloatProofs
  ExactTextModel ExactTextSpec ExactTextDigits ExactTextProofs ExactTextReadProofs.
Import ListNotations.
Local Open Scope Q_scope.

Lemma decades_exist a : canonical a -> is_normal a = true -> exists k, decades (Qabs (value a)) k.
Proof.
  intros C N. destruct (scaled_value a C N) as [P V]. destruct (scaled a) as [m e]. cbn [fst snd] in P, V.
  destruct (dec_spec m P) as (_ & _ & Ne & Lo & Hi).
  assert (Num : (1 <= len (dec m))%Z) by (destruct (dec m); [contradiction|cbn [length]; lia]).
  exists (len (dec m) + e)%Z. unfold decades. rewrite V. split.
  - replace (len (dec m) + e - 1)%Z with ((len (dec m) - 1) + e)%Z by lia. rewrite pow10_plus, (pow10_Z (len (dec m) - 1)) by lia.
    apply Qmult_le_compat_r; [apply inject_le; exact Lo|pose proof (pow10_pos e); lra].
  - rewrite pow10_plus, (pow10_Z (len (dec m))) by lia. apply Qmult_lt_r; [apply pow10_pos|]. rewrite <- Zlt_Qlt. exact Hi.
Qed.

(** How far the printed number can be. *)
Lemma exceptional_dec y : 0 <= y -> (exists m, exceptional y m) \/ (forall m, ~ exceptional y m).
Proof.
  intros Hy. set (z := (10 * y)%Q).
  destruct (Qeq_bool (inject_Z (Qround.Qfloor z)) z) eqn:E.
  - apply Qeq_bool_iff in E. set (t := Qround.Qfloor z) in *.
    assert (Ey : y == inject_Z t * (1 # 10)) by (rewrite E; unfold z; ring).
    destruct (Z.even (t / 10)) eqn:Ev; [destruct (Z_le_dec 6 (t mod 10)) as [H|H]|].
    + left. exists (t / 10)%Z. split; [exact Ev|]. exists (t mod 10)%Z. pose proof (Z.mod_pos_bound t 10 ltac:(lia)).
      split; [lia|]. rewrite Ey. rewrite (Z.div_mod t 10) at 1 by lia. rewrite inject_Z_plus, inject_Z_mult.
      change (inject_Z 10) with 10. ring.
    + right. intros m [Em (j & J & X)]. rewrite Ey in X.
      assert (Y : inject_Z t == inject_Z (10 * m + j)).
      { rewrite inject_Z_plus, inject_Z_mult. change (inject_Z 10) with 10. lra. }
      apply (proj1 (inject_Z_injective _ _)) in Y. rewrite Y in H. rewrite Z.add_comm, Z.mul_comm, Z_mod_plus_full in H.
      rewrite Z.mod_small in H by lia. lia.
    + right. intros m [Em (j & J & X)]. rewrite Ey in X.
      assert (Y : inject_Z t == inject_Z (10 * m + j)).
      { rewrite inject_Z_plus, inject_Z_mult. change (inject_Z 10) with 10. lra. }
      apply (proj1 (inject_Z_injective _ _)) in Y.
      assert (t / 10 = m)%Z by (rewrite Y, Z.mul_comm, Z.add_comm, Z.div_add by lia; rewrite Z.div_small by lia; lia).
      congruence.
  - right. intros m [Em (j & J & X)]. apply Qeq_bool_neq in E. apply E.
    assert (Z0 : z == inject_Z (10 * m + j)).
    { unfold z. rewrite X, inject_Z_plus, inject_Z_mult. change (inject_Z 10) with 10. ring. }
    rewrite (Qround.Qfloor_comp _ _ Z0), Qround.Qfloor_Z. symmetry. exact Z0.
Qed.
Lemma printed_error y n : 0 <= y -> printed y n -> - (9 # 10) <= inject_Z n - y <= 1 # 2.
Proof.
  intros Hy [A B]. destruct (exceptional_dec y Hy) as [(m & H)|H].
  - rewrite (A m H). destruct H as [_ (j & J & X)]. rewrite X.
    assert (inject_Z 6 <= inject_Z j <= inject_Z 9) as Hj by (split; apply inject_le; lia).
    change (inject_Z 6) with 6 in Hj. change (inject_Z 9) with 9 in Hj. lra.
  - destruct (B H) as [R _]. apply Qabs_Qle_condition in R. lra.
Qed.

(** The number of digits is enough for the precision. *)
Lemma enough_digits p : (0 < p)%Z -> (2 ^ p <= 10 ^ (num_significant_digits_for_prec p - 1))%Z.
Proof.
  intros H. unfold num_significant_digits_for_prec.
  replace (1 + len (dec (2 ^ p)) - 1)%Z with (len (dec (2 ^ p))) by lia.
  destruct (dec_spec (2 ^ p)) as (_ & _ & _ & _ & X); [apply Z.pow_pos_nonneg; lia|]. lia.
Qed.

(** Distinct positive numbers of the same precision are far apart. *)
Lemma odd_gap a b : Z.odd a = true -> Z.odd b = true -> (a < b)%Z -> (a + 2 <= b)%Z.
Proof.
  intros A B H. destruct (Z.eq_dec b (a + 1)) as [->|]; [|lia].
  rewrite Z.odd_add, A in B. discriminate.
Qed.
Lemma gap m e m' e' p : (0 < m)%Z -> (0 < m')%Z -> Z.odd m = true -> Z.odd m' = true ->
  num_bits m = p -> num_bits m' = p -> (1 < p)%Z ->
  inject_Z m * pow2 e < inject_Z m' * pow2 e' -> inject_Z m * pow2 e + (3 # 2) * pow2 e' <= inject_Z m' * pow2 e'.
Proof.
  intros P P' O O' B B' Hp H. pose proof (num_bits_bounds m P) as R. pose proof (num_bits_bounds m' P') as R'.
  rewrite B in R. rewrite B' in R'. pose proof (pow2_pos e') as Q'. pose proof (pow2_pos e) as Q.
  destruct (Z.lt_trichotomy e e') as [L|[->|L]].
  - (* m 2^e <= (2^p - 1) 2^(e' - 1) *)
    assert (Ev : Z.odd (2 ^ (p - 1)) = false).
    { replace (p - 1)%Z with (Z.succ (p - 2)) by lia. rewrite Z.pow_succ_r by lia. rewrite Z.odd_mul. reflexivity. }
    assert (R1 : (2 ^ (p - 1) + 1 <= m')%Z).
    { destruct (Z.eq_dec m' (2 ^ (p - 1))) as [E|E]; [rewrite E in O'; congruence|lia]. }
    assert (U : inject_Z m * pow2 e <= inject_Z (2 ^ p - 1) * (pow2 e' * (1 # 2))).
    { apply Qle_trans with (inject_Z (2 ^ p - 1) * pow2 e).
      - apply Qmult_le_compat_r; [apply inject_le; lia|lra].
      - rewrite !(Qmult_comm (inject_Z (2 ^ p - 1))). apply Qmult_le_compat_r.
        + apply Qle_trans with (pow2 (e' - 1)); [apply pow2_le; lia|].
          replace e' with ((e' - 1) + 1)%Z at 2 by lia. rewrite pow2_plus, pow2_1. lra.
        + change 0 with (inject_Z 0). apply inject_le. assert (0 < 2 ^ p)%Z by (apply Z.pow_pos_nonneg; lia). lia. }
    assert (W : inject_Z (2 ^ (p - 1) + 1) * pow2 e' <= inject_Z m' * pow2 e').
    { apply Qmult_le_compat_r; [apply inject_le; exact R1|lra]. }
    assert (T : inject_Z (2 ^ p) == 2 * inject_Z (2 ^ (p - 1))).
    { replace p with (Z.succ (p - 1)) at 1 by lia. rewrite Z.pow_succ_r, inject_Z_mult by lia. reflexivity. }
    unfold Z.sub in U. rewrite inject_Z_plus in U. rewrite inject_Z_plus in W.
    change (inject_Z (- (1))) with (- (1))%Q in U. change (inject_Z 1) with 1 in W. rewrite T in U.
    set (h := inject_Z (2 ^ (p - 1))) in *. clearbody h.
    assert (X : (2 * h + - (1)) * (pow2 e' * (1 # 2)) == h * pow2 e' - (1 # 2) * pow2 e') by ring. rewrite X in U.
    assert (Y : (h + 1) * pow2 e' == h * pow2 e' + pow2 e') by ring. rewrite Y in W. lra.
  - rewrite (val_lt m m' e') in H. pose proof (odd_gap m m' O O' H) as G.
    assert (W : inject_Z (m + 2) * pow2 e' <= inject_Z m' * pow2 e') by (apply Qmult_le_compat_r; [apply inject_le; exact G|lra]).
    rewrite inject_Z_plus in W. change (inject_Z 2) with 2 in W.
    assert (Y : (inject_Z m + 2) * pow2 e' == inject_Z m * pow2 e' + 2 * pow2 e') by ring. rewrite Y in W. lra.
  - exfalso. destruct (mag m e P) as [A _]. destruct (mag m' e' P') as [_ A']. rewrite B in A. rewrite B' in A'.
    assert (e + p - 1 < e' + p)%Z by (apply pow2_lt_inv; lra). lia.
Qed.

Lemma texts_differ m e m' e' p d k k' n n' y y' : (0 < m)%Z -> (0 < m')%Z -> Z.odd m = true -> Z.odd m' = true ->
  num_bits m = p -> num_bits m' = p -> (2 ^ p <= 10 ^ (d - 1))%Z -> (10 <= d)%Z ->
  y == inject_Z m * pow2 e -> y' == inject_Z m' * pow2 e' ->
  decades y k -> decades y' k' ->
  printed (y * pow10 (d - k)) n -> printed (y' * pow10 (d - k')) n' ->
  y < y' -> ~ inject_Z n * pow10 (k - d) == inject_Z n' * pow10 (k' - d).
Proof.
  intros P P' O O' B B' Hd H10 V V' K K' Pr Pr' Lt E.
  assert (Y0 : 0 < y) by (rewrite V; apply val_pos; exact P).
  assert (Y0' : 0 < y') by (rewrite V'; apply val_pos; exact P').
  set (g := pow10 (k - d)) in *. set (g' := pow10 (k' - d)) in *.
  assert (Gg : 0 < g) by apply pow10_pos. assert (Gg' : 0 < g') by apply pow10_pos.
  assert (I1 : pow10 (d - k) * g == 1).
  { unfold g. rewrite <- pow10_plus. replace (d - k + (k - d))%Z with 0%Z by lia. reflexivity. }
  assert (I2 : pow10 (d - k') * g' == 1).
  { unfold g'. rewrite <- pow10_plus. replace (d - k' + (k' - d))%Z with 0%Z by lia. reflexivity. }
  assert (A : inject_Z n * g <= y + (1 # 2) * g).
  { destruct (printed_error (y * pow10 (d - k)) n) as [_ X];
      [apply Qmult_le_0_compat; [lra|pose proof (pow10_pos (d - k)); lra]|exact Pr|].
    assert (Z1 : inject_Z n <= y * pow10 (d - k) + (1 # 2)) by lra.
    apply (Qmult_le_compat_r _ _ g) in Z1; [|lra].
    assert (Z2 : (y * pow10 (d - k) + (1 # 2)) * g == y * (pow10 (d - k) * g) + (1 # 2) * g) by ring.
    rewrite Z2, I1 in Z1. lra. }
  assert (A' : y' - (9 # 10) * g' <= inject_Z n' * g').
  { destruct (printed_error (y' * pow10 (d - k')) n') as [X _];
      [apply Qmult_le_0_compat; [lra|pose proof (pow10_pos (d - k')); lra]|exact Pr'|].
    assert (Z1 : y' * pow10 (d - k') - (9 # 10) <= inject_Z n') by lra.
    apply (Qmult_le_compat_r _ _ g') in Z1; [|lra].
    assert (Z2 : (y' * pow10 (d - k') - (9 # 10)) * g' == y' * (pow10 (d - k') * g') - (9 # 10) * g') by ring.
    rewrite Z2, I2 in Z1. lra. }
  assert (Kk : (k <= k')%Z).
  { destruct K as [K1 _], K' as [_ K2]. assert (k - 1 < k')%Z by (apply pow10_lt_inv; lra). lia. }
  assert (Gl : g <= g') by (apply pow10_le; lia).
  assert (G1 : y' - y <= (14 # 10) * g') by lra.
  assert (D1 : pow10 (d - 1) * g' <= y').
  { unfold g'. rewrite <- pow10_plus. replace (d - 1 + (k' - d))%Z with (k' - 1)%Z by lia. exact (proj1 K'). }
  destruct (Z.eq_dec p 1) as [->|Hp].
  - (* powers of two *)
    assert (Em : m = 1%Z) by (pose proof (num_bits_bounds m P) as R; rewrite B in R; change (2 ^ 1)%Z with 2%Z in R; lia).
    assert (Em' : m' = 1%Z) by (pose proof (num_bits_bounds m' P') as R; rewrite B' in R; change (2 ^ 1)%Z with 2%Z in R; lia).
    subst m m'. change (inject_Z 1) with 1 in V, V'. rewrite Qmult_1_l in V, V'.
    assert (L : (e < e')%Z) by (apply pow2_lt_inv; lra).
    assert (H : y <= (1 # 2) * y').
    { rewrite V, V'. replace e' with ((e' - 1) + 1)%Z by lia. rewrite pow2_plus, pow2_1.
      assert (X : pow2 e <= pow2 (e' - 1)) by (apply pow2_le; lia). lra. }
    assert (T : pow10 1 <= pow10 (d - 1)) by (apply pow10_le; lia). change (pow10 1) with 10 in T.
    assert (T' : 10 * g' <= pow10 (d - 1) * g') by (apply Qmult_le_compat_r; lra). lra.
  - assert (Hp1 : (1 < p)%Z) by (pose proof (num_bits_ge1 m P); lia).
    assert (G2 : y + (3 # 2) * pow2 e' <= y').
    { rewrite V, V'. apply (gap m e m' e' p); try assumption. rewrite <- V, <- V'. exact Lt. }
    (* y' < 2^p 2^e' *)
    assert (U : y' < pow2 p * pow2 e').
    { rewrite V'. rewrite (pow2_Z p) by lia. apply Qmult_lt_r; [apply pow2_pos|]. rewrite <- Zlt_Qlt.
      pose proof (num_bits_bounds m' P') as R. rewrite B' in R. lia. }
    assert (W : pow2 p * pow2 e' <= pow10 (d - 1) * pow2 e').
    { apply Qmult_le_compat_r; [|pose proof (pow2_pos e'); lra]. rewrite (pow2_Z p), (pow10_Z (d - 1)) by lia. apply inject_le. exact Hd. }
    assert (S : g' < pow2 e').
    { assert (X : g' * pow10 (d - 1) < pow2 e' * pow10 (d - 1)) by lra.
      exact (proj1 (Qmult_lt_r _ _ _ (pow10_pos (d - 1))) X). }
    lra.
Qed.

Lemma sign_text a : canonical a -> is_normal a = true -> value a == signed (sign a) (Qabs (value a)).
Proof.
  intros C N. pose proof (value_abs a C N) as V. unfold signed.
  destruct (canonical_sign a C) as [S|S]; rewrite S.
  - change (1 <? 0)%Z with false. cbv iota. rewrite V, (value_normal a N), S, Z.mul_1_l. reflexivity.
  - change (-1 <? 0)%Z with true. cbv iota. rewrite V, (value_normal a N), S, inject_Z_mult.
    change (inject_Z (-1)) with (- (1))%Q. ring.
Qed.

Definition to_string_digits (a : exactfloat) : Z :=
  Z.max kMinSignificantDigits (num_significant_digits_for_prec (prec a)).
Lemma digits_for a : canonical a -> is_normal a = true ->
  (2 ^ prec a <= 10 ^ (to_string_digits a - 1))%Z /\ (10 <= to_string_digits a)%Z.
Proof.
  intros C N. destruct (canonical_normal a C N) as (P & _). pose proof (num_bits_ge1 _ P) as G. fold (prec a) in G.
  unfold to_string_digits, kMinSignificantDigits. split; [|lia].
  eapply Z.le_trans; [apply enough_digits; lia|]. apply Z.pow_le_mono_r; lia.
Qed.

Lemma normal_unique a b : canonical a -> canonical b -> is_normal a = true -> is_normal b = true ->
  prec a = prec b -> to_string a = to_string b -> a = b.
Proof.
  intros C C' N N' Pe E.
  destruct (decades_exist a C N) as (k & K). destruct (decades_exist b C' N') as (k' & K').
  destruct (digits_for a C N) as [D1 D2]. set (d := to_string_digits a) in *.
  assert (Db : to_string_digits b = d) by (unfold d, to_string_digits; rewrite Pe; reflexivity).
  destruct (text_spec a d k C N ltac:(lia) K) as (n & Pr & N1 & _ & (r & R & Q1) & _).
  destruct (text_spec b d k' C' N' ltac:(lia) K') as (n' & Pr' & N1' & _ & (r' & R' & Q1') & _).
  assert (Er : r = r').
  { unfold to_string in E. fold (to_string_digits a) in E. fold (to_string_digits b) in E. rewrite Db in E. fold d in E.
    rewrite E in R. congruence. }
  subst r'. rewrite Q1 in Q1'.
  assert (Pn : (0 < 10 ^ (d - 1))%Z) by (apply Z.pow_pos_nonneg; lia).
  assert (Z1 : 0 < inject_Z n * pow10 (k - d)).
  { apply Qmult_lt_0_compat; [change 0 with (inject_Z 0); rewrite <- Zlt_Qlt; lia|apply pow10_pos]. }
  assert (Z1' : 0 < inject_Z n' * pow10 (k' - d)).
  { apply Qmult_lt_0_compat; [change 0 with (inject_Z 0); rewrite <- Zlt_Qlt; lia|apply pow10_pos]. }
  assert (S : sign a = sign b).
  { destruct (canonical_sign a C) as [Sa|Sa], (canonical_sign b C') as [Sb|Sb]; rewrite Sa, Sb in *; try reflexivity;
      unfold signed in Q1'; cbn [Z.ltb Z.compare] in Q1'; exfalso; lra. }
  assert (Q2 : inject_Z n * pow10 (k - d) == inject_Z n' * pow10 (k' - d)).
  { rewrite S in Q1'. unfold signed in Q1'. destruct (sign b <? 0)%Z; lra. }
  destruct (canonical_normal a C N) as (Pa & Oa & _). destruct (canonical_normal b C' N') as (Pb & Ob & _).
  pose proof (value_abs a C N) as Va. pose proof (value_abs b C' N') as Vb. unfold prec in Pe.
  assert (B1 : num_bits (bn a) = prec a) by reflexivity. assert (B2 : num_bits (bn b) = prec a) by (unfold prec; congruence).
  destruct (Q_dec (Qabs (value a)) (Qabs (value b))) as [[L|L]|Eq].
  - exfalso. exact (texts_differ _ _ _ _ _ _ _ _ _ _ _ _ Pa Pb Oa Ob B1 B2 D1 D2 Va Vb K K' Pr Pr' L Q2).
  - exfalso. apply (texts_differ _ _ _ _ _ _ _ _ _ _ _ _ Pb Pa Ob Oa B2 B1 D1 D2 Vb Va K' K Pr' Pr L). symmetry. exact Q2.
  - apply canonical_unique; try assumption. rewrite (sign_text a C N), (sign_text b C' N'), S. unfold signed.
    destruct (sign b <? 0)%Z; rewrite Eq; reflexivity.
Qed.

(** Zero, infinity and NaN have no mantissa bits. *)
Lemma special_prec a : canonical a -> is_normal a = false -> prec a = 0%Z.
Proof.
  intros C N. unfold prec. destruct (canonical_kind a C) as [H|[H|[H|[_ H]]]]; [congruence| | |].
  - rewrite H. reflexivity.
  - rewrite H. reflexivity.
  - rewrite H. reflexivity.
Qed.
Lemma normal_prec a : canonical a -> is_normal a = true -> (0 < prec a)%Z.
Proof. intros C N. destruct (canonical_normal a C N) as (P & _). pose proof (num_bits_ge1 _ P) as G. unfold prec. lia. Qed.
Lemma special_text a d : canonical a -> is_normal a = false -> is_nan a = false ->
  to_string_with_max_digits a d = (if (sign a <? 0)%Z then [chr_minus] else []) ++ (if is_zero a then [chr0] else text_inf).
Proof.
  intros C N Na. unfold to_string_with_max_digits. rewrite N, Na. cbn [negb].
  destruct (is_zero a), (sign a <? 0)%Z; reflexivity.
Qed.

Lemma text_unique a b : canonical a -> canonical b -> is_nan a = false -> is_nan b = false ->
  prec a = prec b -> to_string a = to_string b -> a = b.
Proof.
  intros C C' Na Nb Pe E. destruct (is_normal a) eqn:N, (is_normal b) eqn:N'.
  - apply normal_unique; assumption.
  - exfalso. pose proof (normal_prec a C N). pose proof (special_prec b C' N'). lia.
  - exfalso. pose proof (normal_prec b C' N'). pose proof (special_prec a C N). lia.
  - unfold to_string in E. rewrite (special_text a _ C N Na), (special_text b _ C' N' Nb) in E.
    destruct (canonical_kind a C) as [H|[H|[H|[H _]]]]; try congruence;
    destruct (canonical_kind b C') as [H'|[H'|[H'|[H' _]]]]; try congruence;
    destruct (canonical_sign a C) as [S|S], (canonical_sign b C') as [S'|S'];
    rewrite S in H; rewrite S' in H'; rewrite H, H' in E |- *; try reflexivity; vm_compute in E; discriminate E.
Qed.

Lemma nan_text a b : canonical a -> canonical b -> is_nan a = true -> to_string a = to_string b -> is_nan b = true.
Proof.
  intros C C' Na E. unfold to_string in E.
  assert (Ta : forall d, to_string_with_max_digits a d = text_nan).
  { intros d. unfold to_string_with_max_digits. destruct (is_normal a) eqn:N.
    - destruct (normal_flags a N) as (_ & _ & X & _). congruence.
    - rewrite Na. reflexivity. }
  rewrite Ta in E. destruct (is_nan b) eqn:Nb; [reflexivity|]. exfalso. destruct (is_normal b) eqn:N'.
  - destruct (decades_exist b C' N') as (k & K). destruct (digits_for b C' N') as [_ D]. assert (D1 : (1 <= to_string_digits b)%Z) by lia.
    fold (to_string_digits b) in E.
    destruct (text_spec b _ k C' N' D1 K) as (n & _ & _ & _ & (r & R & _) & _).
    rewrite <- E in R. discriminate.
  - rewrite (special_text b _ C' N' Nb) in E. destruct (sign b <? 0)%Z, (is_zero b); discriminate.
Qed.

Lemma split_unique {A} (c : A) l r l' r' : ~ In c l -> ~ In c l' -> l ++ c :: r = l' ++ c :: r' -> l = l' /\ r = r'.
Proof.
  revert l'. induction l as [|x l IH]; intros [|x' l'] H H' E; cbn [app] in E.
  - inversion E. split; reflexivity.
  - inversion E; subst. exfalso. apply H'. left. reflexivity.
  - inversion E; subst. exfalso. apply H. left. reflexivity.
  - inversion E as [[E1 E2]]. subst x'. destruct (IH l') as [-> ->]; [intros I; apply H; right; exact I|intros I; apply H'; right; exact I|exact E2|].
    split; reflexivity.
Qed.
Lemma no_lt a : canonical a -> ~ In 60%Z (to_string a).
Proof.
  intros C I. destruct (is_normal a) eqn:N.
  - destruct (decades_exist a C N) as (k & K). destruct (digits_for a C N) as [_ D]. assert (D1 : (1 <= to_string_digits a)%Z) by lia.
    unfold to_string in I. fold (to_string_digits a) in I.
    destruct (text_spec a _ k C N D1 K) as (n & _ & _ & _ & _ & _ & _ & H). exact (H _ I eq_refl).
  - unfold to_string, to_string_with_max_digits in I. rewrite N in I. cbn [negb] in I.
    destruct (is_nan a), (is_zero a), (sign a <? 0)%Z; vm_compute in I; intuition discriminate.
Qed.
Lemma unique_string a b : canonical a -> canonical b -> to_unique_string a = to_unique_string b ->
  a = b \/ (is_nan a = true /\ is_nan b = true).
Proof.
  intros C C' E. unfold to_unique_string in E.
  destruct (split_unique _ _ _ _ _ (no_lt a C) (no_lt b C') E) as [E1 E2].
  apply app_inj_tail in E2. destruct E2 as [E2 _].
  assert (Pa : (0 <= prec a)%Z) by (unfold prec, num_bits; destruct (bn a =? 0)%Z; [lia|pose proof (Z.log2_nonneg (Z.abs (bn a))); lia]).
  assert (Pb : (0 <= prec b)%Z) by (unfold prec, num_bits; destruct (bn b =? 0)%Z; [lia|pose proof (Z.log2_nonneg (Z.abs (bn b))); lia]).
  assert (Pe : prec a = prec b).
  { destruct (dec0_spec _ Pa) as (_ & X & _). destruct (dec0_spec _ Pb) as (_ & Y & _). rewrite <- X, <- Y, E2. reflexivity. }
  destruct (is_nan a) eqn:Na.
  - right. split; [reflexivity|]. exact (nan_text a b C C' Na E1).
  - destruct (is_nan b) eqn:Nb.
    + pose proof (nan_text b a C' C Nb (eq_sym E1)). congruence.
    + left. apply text_unique; assumption.
Qed.

(** ** Consequences *)
Lemma exact_text a d k z : canonical a -> is_normal a = true -> (1 <= d)%Z -> decades (Qabs (value a)) k ->
  Qabs (value a) * pow10 (d - k) == inject_Z z -> reads (to_string_with_max_digits a d) (value a).
Proof.
  intros C N Hd K E. destruct (text_spec a d k C N Hd K) as (n & Pr & _ & _ & (r & R & Q1) & _).
  exists r. split; [exact R|]. rewrite Q1, (sign_text a C N).
  assert (En : n = z).
  { apply (printed_wd _ _ _ E) in Pr. destruct Pr as [_ B].
    assert (Nx : forall m, ~ exceptional (inject_Z z) m).
    { intros m [Em (j & J & H)].
      assert (X : inject_Z (10 * z) == inject_Z (10 * m + j)).
      { rewrite inject_Z_plus, !inject_Z_mult, H. change (inject_Z 10) with 10. ring. }
      apply (proj1 (inject_Z_injective _ _)) in X. lia. }
    destruct (B Nx) as [Rd _]. unfold Qminus in Rd. rewrite <- inject_Z_opp, <- inject_Z_plus in Rd.
    apply Qabs_Qle_condition in Rd. destruct Rd as [R1 R2].
    assert (A1 : inject_Z (z + - n) < inject_Z 1) by (change (inject_Z 1) with 1; lra).
    assert (A2 : inject_Z (-1) < inject_Z (z + - n)) by (change (inject_Z (-1)) with (-1); lra).
    rewrite <- Zlt_Qlt in A1, A2. lia. }
  subst n.
  assert (X : inject_Z z * pow10 (k - d) == Qabs (value a)).
  { rewrite <- E. rewrite <- Qmult_assoc, <- pow10_plus. replace (d - k + (k - d))%Z with 0%Z by lia.
    change (pow10 0) with 1. ring. }
  unfold signed. destruct (sign a <? 0)%Z; rewrite X; reflexivity.
Qed.

Lemma error_bound a d k : canonical a -> is_normal a = true -> (1 <= d)%Z -> decades (Qabs (value a)) k ->
  exists q, reads (to_string_with_max_digits a d) q /\ Qabs (q - value a) < pow10 (k - d).
Proof.
  intros C N Hd K. destruct (text_spec a d k C N Hd K) as (n & Pr & _ & _ & R & _).
  exists (signed (sign a) (inject_Z n * pow10 (k - d))). split; [exact R|].
  set (g := pow10 (k - d)). assert (Gg : 0 < g) by apply pow10_pos.
  set (v := Qabs (value a)) in *. assert (V0 : 0 <= v) by apply Qabs_nonneg.
  assert (I1 : pow10 (d - k) * g == 1).
  { unfold g. rewrite <- pow10_plus. replace (d - k + (k - d))%Z with 0%Z by lia. reflexivity. }
  destruct (printed_error (v * pow10 (d - k)) n) as [X Y];
    [apply Qmult_le_0_compat; [exact V0|pose proof (pow10_pos (d - k)); lra]|exact Pr|].
  assert (Z0 : inject_Z n * g - v == (inject_Z n - v * pow10 (d - k)) * g).
  { setoid_replace ((inject_Z n - v * pow10 (d - k)) * g) with (inject_Z n * g - v * (pow10 (d - k) * g)) by ring.
    rewrite I1. ring. }
  assert (B : Qabs (inject_Z n * g - v) < g).
  { apply Qle_lt_trans with ((9 # 10) * g); [|lra]. apply Qabs_Qle_condition. rewrite Z0.
    apply (Qmult_le_compat_r _ _ g) in X; [|lra]. apply (Qmult_le_compat_r _ _ g) in Y; [|lra]. split; lra. }
  assert (W : Qabs (signed (sign a) (inject_Z n * g) - value a) == Qabs (inject_Z n * g - v)).
  { pose proof (sign_text a C N) as St. fold v in St. unfold signed in *. destruct (sign a <? 0)%Z.
    - rewrite <- Qabs_opp. apply Qabs_wd. rewrite St. ring.
    - apply Qabs_wd. rewrite St. reflexivity. }
  rewrite W. exact B.
Qed.

(** Integers of at most ten digits are printed in full. *)
Lemma dec_unique l n : Forall digit l -> leading l -> number l = n -> (0 < n)%Z -> l = dec n.
Proof.
  intros F L E P. destruct (dec_spec n P) as (F' & E' & Ne & Lo & Hi).
  assert (Hl : length l = length (dec n)).
  { pose proof (number_range l F) as R. unfold leading in L. rewrite E in *.
    assert (len l - 1 < len (dec n))%Z by (apply (Z.pow_lt_mono_r_iff 10); lia).
    assert (len (dec n) - 1 < len l)%Z by (apply (Z.pow_lt_mono_r_iff 10); lia). lia. }
  rewrite <- E' in E. clear L E' Lo Hi Ne P. revert F' Hl E. generalize (dec n). clear n. intros m. revert m.
  induction l as [|c l IH]; intros [|c' m] F' Hl E; try discriminate; [reflexivity|].
  inversion F as [|? ? D Fl]; subst. inversion F' as [|? ? D' Fm]; subst. cbn [length] in Hl.
  rewrite !number_cons in E. replace (length m) with (length l) in E by lia.
  pose proof (number_range l Fl) as R. pose proof (number_range m Fm) as R'. replace (length m) with (length l) in R' by lia.
  unfold digit in *. assert (c = c') by nia. subst c'. f_equal. apply IH; [exact Fl|exact Fm|lia|lia].
Qed.

Lemma integer_text a z : canonical a -> is_normal a = true -> value a == inject_Z z -> (Z.abs z < 10 ^ 10)%Z ->
  to_string a = (if (z <? 0)%Z then [45%Z] else []) ++ dec (Z.abs z).
Proof.
  intros C N V Hz. destruct (canonical_normal a C N) as (P & Odd & _).
  assert (Va : Qabs (value a) == inject_Z (Z.abs z)) by (rewrite (Qabs_wd _ _ V); reflexivity).
  rewrite (value_abs a C N) in Va.
  assert (Be : (0 <= bn_exp a)%Z /\ (bn a * 2 ^ bn_exp a = Z.abs z)%Z).
  { destruct (odd_shortest (bn a) (bn_exp a) (Z.abs z) 0 P Odd) as [A B].
    - rewrite Va. change (pow2 0) with 1. ring.
    - rewrite Z.sub_0_r in B. split; [exact A|symmetry; exact B]. }
  destruct Be as [Be Ez].
  assert (Sg : (sign a <? 0)%Z = (z <? 0)%Z).
  { rewrite (value_normal a N) in V. pose proof (pow2_pos (bn_exp a)) as P2.
    assert (B0 : 0 < inject_Z (bn a)) by (change 0 with (inject_Z 0); rewrite <- Zlt_Qlt; exact P).
    assert (B1 : 0 < inject_Z (bn a) * pow2 (bn_exp a)) by (apply Qmult_lt_0_compat; assumption).
    destruct (canonical_sign a C) as [S|S]; rewrite S in *.
    - rewrite Z.mul_1_l in V. destruct (Z.ltb_spec z 0) as [H|_]; [|reflexivity]. exfalso.
      rewrite Zlt_Qlt in H. change (inject_Z 0) with 0 in H. lra.
    - rewrite inject_Z_mult in V. change (inject_Z (-1)) with (- (1)) in V.
      destruct (Z.ltb_spec z 0) as [_|H]; [reflexivity|]. exfalso. rewrite Zle_Qle in H. change (inject_Z 0) with 0 in H.
      assert (X : - (1) * inject_Z (bn a) * pow2 (bn_exp a) == - (inject_Z (bn a) * pow2 (bn_exp a))) by ring. lra. }
  assert (Pz : (0 < Z.abs z)%Z) by (rewrite <- Ez; apply Z.mul_pos_pos; [exact P|apply Z.pow_pos_nonneg; lia]).
  destruct (digits_for a C N) as [_ D]. unfold to_string. fold (to_string_digits a). set (d := to_string_digits a) in *.
  unfold to_string_with_max_digits. rewrite N, Sg. cbn [negb].
  rewrite get_decimal_digits_kept. unfold kept_digits, scaled.
  assert (Be' : (0 <=? bn_exp a)%Z = true) by (apply Z.leb_le; exact Be). rewrite Be'.
  rewrite Z.shiftl_mul_pow2, Ez by exact Be.
  destruct (dec_spec (Z.abs z) Pz) as (F & E' & Ne & Lo & Hi). set (l := dec (Z.abs z)) in *.
  assert (Ll : (1 <= len l <= 10)%Z).
  { split; [destruct l; [contradiction|cbn [length]; lia]|].
    assert (len l - 1 < 10)%Z by (apply (Z.pow_lt_mono_r_iff 10); lia). lia. }
  assert (Hd : (len l <=? d)%Z = true) by (apply Z.leb_le; lia). rewrite Hd.
  destruct (strip_spec l) as (j & Sl & _).
  assert (Lj : (length l = length (strip l) + j)%nat) by (rewrite Sl at 1; rewrite app_length, repeat_length; reflexivity).
  replace (0 + (len l - len (strip l)) + len (strip l))%Z with (len l) by lia.
  unfold layout. destruct (Z.leb_spec (len l) (-4)); [lia|]. destruct (Z.ltb_spec d (len l)); [lia|]. cbn [orb].
  destruct (Z.ltb_spec 0 (len l)); [|lia]. destruct (Z.leb_spec (len (strip l)) (len l)); [|lia].
  replace (Z.to_nat (len l - len (strip l))) with j by lia. unfold chr0. rewrite <- Sl. reflexivity.
Qed.
Lemma integer_plain a z : canonical a -> is_normal a = true -> value a == inject_Z z -> (Z.abs z < 10 ^ 10)%Z ->
  exists t, to_string a = (if (z <? 0)%Z then [45%Z] else []) ++ t /\ digits_ok t = true /\ number t = Z.abs z /\ hd 48%Z t <> 48%Z.
Proof.
  intros C N V Hz. exists (dec (Z.abs z)). split; [exact (integer_text a z C N V Hz)|].
  assert (Pz : (0 < Z.abs z)%Z).
  { destruct (Z.eq_dec z 0) as [->|]; [|lia]. exfalso. exact (normal_nonzero a C N V). }
  destruct (dec_spec (Z.abs z) Pz) as (F & E & Ne & Lo & _). split; [exact (digits_ok_intro _ Ne F)|].
  split; [exact E|]. apply leading_hd; [exact F|exact Ne|]. unfold leading. rewrite E. exact Lo.
Qed.
