(** Proofs about the arithmetic and comparison of exact floating point numbers. *)
From Coq Require Import ZArith QArith Qabs Qpower Lqa Lia Bool.
From Verif Require Import Base ExactFloatModel ExactFloatSpec ExactFloatLib ExactFloatProofs.
Local Open Scope Z_scope.

Lemma stored_as_exact s q r : stored_as s q r -> (pow2 (kMinExp - 1) <= Qabs q)%Q -> (Qabs q < pow2 kMaxExp)%Q -> fits kMaxPrec q ->
  is_normal r = true /\ (value r == q)%Q.
Proof. intros (_ & _ & _ & F) L U Ft. destruct (F L U) as [H _]. apply H, Ft. Qed.

Lemma flags_zero s : is_normal (signed_zero s) = false /\ is_zero (signed_zero s) = true /\ is_inf (signed_zero s) = false /\ is_nan (signed_zero s) = false /\ is_finite (signed_zero s) = true.
Proof. unfold is_normal, is_zero, is_inf, is_nan, is_finite, signed_zero. cbn [bn_exp]. kf. rewrite Z.ltb_irrefl, Z.eqb_refl, Z.leb_refl. repeat split; try (apply Z.eqb_neq; lia). Qed.
Lemma flags_inf s : is_normal (infinity s) = false /\ is_zero (infinity s) = false /\ is_inf (infinity s) = true /\ is_nan (infinity s) = false /\ is_finite (infinity s) = false.
Proof.
  unfold is_normal, is_zero, is_inf, is_nan, is_finite, infinity. cbn [bn_exp]. kf. rewrite Z.eqb_refl.
  repeat split; try (apply Z.eqb_neq; lia); try (apply Z.ltb_ge; lia); try (apply Z.leb_gt; lia).
Qed.
Lemma flags_nan : is_normal nan = false /\ is_zero nan = false /\ is_inf nan = false /\ is_nan nan = true /\ is_finite nan = false.
Proof.
  unfold is_normal, is_zero, is_inf, is_nan, is_finite, nan. cbn [bn_exp]. kf. rewrite Z.eqb_refl.
  repeat split; try (apply Z.eqb_neq; lia); try (apply Z.ltb_ge; lia); try (apply Z.leb_gt; lia).
Qed.
Lemma nan_flags a : is_nan a = true -> is_normal a = false /\ is_zero a = false /\ is_inf a = false /\ is_finite a = false.
Proof.
  unfold is_normal, is_zero, is_inf, is_nan, is_finite. intros H. apply Z.eqb_eq in H. rewrite H. kf.
  repeat split; try (apply Z.eqb_neq; lia); try (apply Z.ltb_ge; lia); try (apply Z.leb_gt; lia).
Qed.
Lemma value_zero s : value (signed_zero s) = 0%Q.
Proof. unfold value. destruct (flags_zero s) as (-> & _). reflexivity. Qed.

(** A finite canonical value is a number or a zero. *)
Lemma finite_kind a : canonical a -> is_finite a = true -> is_normal a = true \/ a = signed_zero (sign a).
Proof.
  intros C F. destruct (canonical_kind a C) as [N|[Z|[I|[N _]]]]; [left; exact N|right; exact Z| |].
  - rewrite I in F. destruct (flags_inf (sign a)) as (_ & _ & _ & _ & G). congruence.
  - destruct (nan_flags a N) as (_ & _ & _ & G). congruence.
Qed.
Lemma inf_kind a : canonical a -> is_inf a = true -> a = infinity (sign a).
Proof.
  intros C F. destruct (canonical_kind a C) as [N|[Z|[I|[N _]]]]; [| |exact I|].
  - destruct (normal_flags a N) as (_ & G & _). congruence.
  - rewrite Z in F. destruct (flags_zero (sign a)) as (_ & _ & G & _). congruence.
  - destruct (nan_flags a N) as (_ & _ & G & _). congruence.
Qed.
Lemma zero_kind a : canonical a -> is_zero a = true -> a = signed_zero (sign a).
Proof.
  intros C F. destruct (canonical_kind a C) as [N|[Z|[I|[N _]]]]; [|exact Z| |].
  - destruct (normal_flags a N) as (G & _). congruence.
  - rewrite I in F. destruct (flags_inf (sign a)) as (_ & G & _). congruence.
  - destruct (nan_flags a N) as (_ & G & _). congruence.
Qed.

(** Small numbers are stored as they are. *)
Lemma small_exact s m e p : s = 1 \/ s = -1 -> 0 <= m < 2 ^ p -> 0 <= p <= 1000 -> -100000 <= e <= 100000 ->
  let r := canonicalize {| sign := s; bn_exp := e; bn := m |} in
  canonical r /\ is_finite r = true /\ (value r == inject_Z (s * m) * pow2 e)%Q /\ sign r = s.
Proof.
  intros Hs Hm Hp He r. kf. assert (St : stored_as s (inject_Z (s * m) * pow2 e) r) by (apply canonicalize_stored_as; lia || assumption).
  split; [apply St|]. pose proof (abs_sm s m e Hs (proj1 Hm)) as A.
  destruct (Z.eq_dec m 0) as [-> |M0].
  - destruct St as (_ & U & _). assert (R : r = signed_zero s).
    { apply U. rewrite A. change (inject_Z 0) with 0%Q. rewrite Qmult_0_l. apply pow2_pos. }
    rewrite R, value_zero. destruct (flags_zero s) as (_ & _ & _ & _ & ->). split; [reflexivity|]. split; [|reflexivity].
    rewrite Z.mul_0_r. ring.
  - assert (Mp : 0 < m) by lia. pose proof (num_bits_ge1 m Mp). assert (NB : num_bits m <= p) by (apply num_bits_le; lia).
    destruct (stored_as_exact _ _ _ St) as [N V].
    + rewrite A. apply mag_ge; lia.
    + rewrite A. apply mag_lt; lia.
    + exists (s * m), e. split; [|reflexivity]. apply Z.lt_le_trans with (2 ^ p); [destruct Hs as [-> | ->]; lia|].
      apply Z.pow_le_mono_r; lia.
    + destruct (normal_flags r N) as (_ & _ & _ & F). split; [exact F|]. split; [exact V|].
      rewrite value_normal in V by exact N. destruct St as (C & _). destruct (canonical_normal r C N) as (Rp & _).
      destruct (canonical_sign r C) as [S|S]; rewrite S in V; destruct Hs as [-> | ->]; try exact S; exfalso.
      * assert (0 < inject_Z (1 * bn r) * pow2 (bn_exp r))%Q as P by (apply val_pos; lia). rewrite V in P. apply val_pos in P. lia.
      * assert (inject_Z (-1 * bn r) * pow2 (bn_exp r) < 0)%Q as P by (apply val_neg; lia). rewrite V in P. apply val_neg in P. lia.
Qed.

Lemma of_double_exact s m e : s = 1 \/ s = -1 -> 0 <= m < 2 ^ 53 -> -2000 <= e <= 1024 ->
  let r := of_double (DFinite s m e) in
  canonical r /\ is_finite r = true /\ (value r == double_value (DFinite s m e))%Q /\ sign r = s.
Proof. intros Hs Hm He. cbn [of_double double_value]. apply (small_exact s m (e - 53) 53); unfold kDoubleMantissaBits; lia || assumption. Qed.
Lemma of_int_exact v : INT_MIN < v <= INT_MAX -> canonical (of_int v) /\ is_finite (of_int v) = true /\ (value (of_int v) == inject_Z v)%Q.
Proof.
  unfold INT_MIN, INT_MAX. intros H. unfold of_int, int_abs, INT_MIN.
  destruct (Z.eqb_spec v (-2147483648)); [lia|]. rewrite Z.mod_small by (split; [lia|]; apply Z.lt_trans with (2 ^ 32); [|reflexivity]; change (2 ^ 32) with 4294967296; lia).
  set (s := if 0 <=? v then 1 else -1). assert (Hs : s = 1 \/ s = -1) by (unfold s; destruct (0 <=? v); auto).
  assert (Hv : 0 <= Z.abs v < 2 ^ 32) by (change (2 ^ 32) with 4294967296; lia).
  destruct (small_exact s (Z.abs v) 0 32 Hs Hv ltac:(lia) ltac:(lia)) as (C & F & V & _).
  split; [exact C|]. split; [exact F|]. rewrite V. change (pow2 0) with 1%Q. rewrite Qmult_1_r.
  replace (s * Z.abs v) with v; [reflexivity|]. unfold s. destruct (Z.leb_spec 0 v); lia.
Qed.

(** ** Addition *)
Lemma sum_core sa am sb bm : (sa = 1 \/ sa = -1) -> (sb = 1 \/ sb = -1) -> 0 < am -> 0 < bm ->
  let '(s, m) := if sa =? sb then (sa, am + bm) else let d := am - bm in if d =? 0 then (1, d) else if d <? 0 then (sb, - d) else (sa, d) in
  (s = 1 \/ s = -1) /\ 0 <= m /\ s * m = sa * am + sb * bm /\ (m = 0 -> s = 1).
Proof.
  intros Ha Hb Pa Pb. destruct (Z.eqb_spec sa sb) as [-> |D].
  - repeat split; try assumption; lia.
  - cbv zeta. destruct (Z.eqb_spec (am - bm) 0); [|destruct (Z.ltb_spec (am - bm) 0)]; repeat split; try assumption; try lia;
      destruct Ha as [-> | ->], Hb as [-> | ->]; lia.
Qed.
Lemma sum_normal_le sa a sb b : (sa = 1 \/ sa = -1) -> (sb = 1 \/ sb = -1) -> 0 < bn a -> 0 < bn b -> bn_exp b <= bn_exp a -> bn_exp b < kExpZero ->
  let am := if bn_exp b <? bn_exp a then Z.shiftl (bn a) (bn_exp a - bn_exp b) else bn a in
  let r := (let '(s, m) := if sa =? sb then (sa, am + bn b) else let d := am - bn b in if d =? 0 then (1, d) else if d <? 0 then (sb, - d) else (sa, d) in
            canonicalize {| sign := s; bn_exp := bn_exp b; bn := m |}) in
  let q := (inject_Z (sa * bn a) * pow2 (bn_exp a) + inject_Z (sb * bn b) * pow2 (bn_exp b))%Q in
  stored q r /\ (q == 0 -> r = signed_zero 1)%Q.
Proof.
  intros Ha Hb Pa Pb L Z am r q.
  assert (Am : am = bn a * 2 ^ (bn_exp a - bn_exp b)).
  { unfold am. destruct (Z.ltb_spec (bn_exp b) (bn_exp a)); [apply Z.shiftl_mul_pow2; lia|].
    replace (bn_exp a - bn_exp b) with 0 by lia. rewrite Z.pow_0_r. lia. }
  assert (Ap : 0 < am) by (rewrite Am; apply Z.mul_pos_pos; [exact Pa|apply Z.pow_pos_nonneg; lia]).
  pose proof (sum_core sa am sb (bn b) Ha Hb Ap Pb) as S. unfold r. clear r.
  destruct (if sa =? sb then (sa, am + bn b) else let d := am - bn b in if d =? 0 then (1, d) else if d <? 0 then (sb, - d) else (sa, d)) as [s m].
  destruct S as (Hs & Hm & E & Z1).
  assert (Q : (q == inject_Z (s * m) * pow2 (bn_exp b))%Q).
  { unfold q. rewrite (shift_val (sa * bn a) (bn_exp a) (bn_exp b)) by exact L. rewrite E, Am.
    rewrite inject_Z_plus. rewrite <- Z.mul_assoc. ring. }
  split.
  - apply (stored_comp _ _ _ (Qeq_sym _ _ Q)). apply canonicalize_stored; assumption.
  - intros Q0. rewrite Q in Q0. setoid_replace 0%Q with (inject_Z 0 * pow2 (bn_exp b))%Q in Q0 by ring. apply val_eq in Q0.
    assert (M0 : m = 0) by (destruct Hs as [-> | ->]; lia). rewrite (Z1 M0), M0.
    destruct (canonicalize_stored_as 1 0 (bn_exp b) (or_introl eq_refl) (Z.le_refl 0) Z) as (_ & U & _). apply U.
    rewrite abs_sm by (auto || lia). change (inject_Z 0) with 0%Q. rewrite Qmult_0_l. apply pow2_pos.
Qed.

Lemma add_normal a b : canonical a -> canonical b -> is_normal a = true -> is_normal b = true ->
  stored (value a + value b) (add a b) /\ (value a + value b == 0 -> add a b = signed_zero 1)%Q.
Proof.
  intros Ca Cb Na Nb. unfold add, signed_sum. rewrite Na, Nb. cbn [negb orb].
  destruct (canonical_normal a Ca Na) as (Pa & _). destruct (canonical_normal b Cb Nb) as (Pb & _).
  pose proof (normal_exp a Ca Na). pose proof (normal_exp b Cb Nb). kf.
  destruct (Z.ltb_spec (bn_exp a) (bn_exp b)) as [L|L].
  - destruct (sum_normal_le (sign b) b (sign a) a (canonical_sign b Cb) (canonical_sign a Ca) Pb Pa ltac:(lia) ltac:(lia)) as [S Z].
    rewrite (value_normal a Na), (value_normal b Nb). split.
    + eapply stored_comp; [|exact S]. ring.
    + intros Q. apply Z. rewrite <- Q. ring.
  - destruct (sum_normal_le (sign a) a (sign b) b (canonical_sign a Ca) (canonical_sign b Cb) Pa Pb ltac:(lia) ltac:(lia)) as [S Z].
    rewrite (value_normal a Na), (value_normal b Nb). split; [exact S|exact Z].
Qed.
Lemma copy_self a : copy_with_sign a (sign a) = a. Proof. destruct a. reflexivity. Qed.
Lemma stored_normal a : canonical a -> is_normal a = true -> stored (value a) a.
Proof.
  intros C N. apply (stored_as_stored (sign a)); [| |apply stored_self; assumption]; rewrite value_normal by exact N;
    destruct (canonical_normal a C N) as (P & _); [apply sm_pos|apply sm_neg]; lia || apply canonical_sign, C.
Qed.
Theorem add_exact a b : canonical a -> canonical b -> is_finite a = true -> is_finite b = true ->
  stored (value a + value b) (add a b) /\
  (value a + value b == 0 -> add a b = signed_zero (if sign a =? sign b then sign a else 1))%Q.
Proof.
  intros Ca Cb Fa Fb. destruct (finite_kind a Ca Fa) as [Na|Za], (finite_kind b Cb Fb) as [Nb|Zb].
  - destruct (add_normal a b Ca Cb Na Nb) as [S Z]. split; [exact S|]. intros Q. rewrite (Z Q). f_equal.
    destruct (Z.eqb_spec (sign a) (sign b)) as [E|E]; [|reflexivity]. exfalso.
    rewrite (value_normal a Na), (value_normal b Nb), <- E in Q.
    destruct (canonical_normal a Ca Na) as (Pa & _). destruct (canonical_normal b Cb Nb) as (Pb & _).
    destruct (canonical_sign a Ca) as [Sa|Sa]; rewrite Sa in Q.
    + assert (0 < inject_Z (1 * bn a) * pow2 (bn_exp a))%Q by (apply val_pos; lia). assert (0 < inject_Z (1 * bn b) * pow2 (bn_exp b))%Q by (apply val_pos; lia). lra.
    + assert (inject_Z (-1 * bn a) * pow2 (bn_exp a) < 0)%Q by (apply val_neg; lia). assert (inject_Z (-1 * bn b) * pow2 (bn_exp b) < 0)%Q by (apply val_neg; lia). lra.
  - assert (R : add a b = a).
    { unfold add, signed_sum. rewrite Na. rewrite Zb. destruct (flags_zero (sign b)) as (-> & Z & I & N & _). cbn [negb orb].
      destruct (normal_flags a Na) as (-> & -> & -> & _). rewrite N, I. apply copy_self. }
    rewrite R. replace (value b) with 0%Q by (rewrite Zb, value_zero; reflexivity). split.
    + eapply stored_comp; [|apply stored_normal; assumption]. ring.
    + intros Q. exfalso. apply (normal_nonzero a Ca Na). rewrite <- Q. ring.
  - assert (R : add a b = b).
    { unfold add, signed_sum. rewrite Nb. rewrite Za. destruct (flags_zero (sign a)) as (-> & Z & I & N & _). cbn [negb orb].
      destruct (normal_flags b Nb) as (Zb & -> & -> & _). rewrite N, I, Z, Zb. cbn [negb]. apply copy_self. }
    rewrite R. replace (value a) with 0%Q by (rewrite Za, value_zero; reflexivity). split.
    + eapply stored_comp; [|apply stored_normal; assumption]. ring.
    + intros Q. exfalso. apply (normal_nonzero b Cb Nb). rewrite <- Q. ring.
  - assert (R : add a b = signed_zero (if sign a =? sign b then sign a else 1)).
    { unfold add, signed_sum. rewrite Za, Zb. destruct (flags_zero (sign a)) as (-> & Z & I & N & _). destruct (flags_zero (sign b)) as (-> & Z' & I' & N' & _).
      cbn [negb orb]. rewrite N, N', I, I', Z, Z'. cbn [negb]. cbn [sign signed_zero]. destruct (sign a =? sign b); reflexivity. }
    rewrite R. replace (value a) with 0%Q by (rewrite Za, value_zero; reflexivity). replace (value b) with 0%Q by (rewrite Zb, value_zero; reflexivity). split; [|reflexivity].
    eapply stored_comp; [|eapply stored_as_stored; [| |apply zero_stored]]; [reflexivity| | |]; try (intros H; exfalso; apply (Qlt_irrefl 0 H)).
    destruct (canonical_sign a Ca) as [-> | ->], (canonical_sign b Cb) as [-> | ->]; cbn; auto.
Qed.

(** Sign changes. *)
Lemma copy_canonical a s : s = 1 \/ s = -1 -> canonical a -> canonical (copy_with_sign a s).
Proof. intros H (_ & K). split; [exact H|exact K]. Qed.
Lemma copy_flags a s : is_normal (copy_with_sign a s) = is_normal a /\ is_zero (copy_with_sign a s) = is_zero a /\ is_inf (copy_with_sign a s) = is_inf a /\ is_nan (copy_with_sign a s) = is_nan a /\ is_finite (copy_with_sign a s) = is_finite a.
Proof. repeat split. Qed.
Lemma neg_canonical a : canonical a -> canonical (neg a).
Proof. intros C. apply copy_canonical; [destruct (canonical_sign a C) as [-> | ->]; auto|exact C]. Qed.
Lemma neg_value a : (value (neg a) == - value a)%Q.
Proof.
  unfold value. change (is_normal (neg a)) with (is_normal a). destruct (is_normal a); [|reflexivity].
  cbn [neg copy_with_sign sign bn bn_exp]. rewrite Z.mul_opp_l, inject_Z_opp. ring.
Qed.
Lemma abs_canonical a : canonical a -> canonical (abs a).
Proof. apply copy_canonical. auto. Qed.
Lemma abs_value a : canonical a -> (value (abs a) == Qabs (value a))%Q.
Proof.
  intros C. destruct (is_normal a) eqn:N.
  - rewrite (value_abs a C N). unfold abs. rewrite value_normal by exact N. cbn [copy_with_sign sign bn bn_exp]. rewrite Z.mul_1_l. reflexivity.
  - unfold value. change (is_normal (abs a)) with (is_normal a). rewrite N. reflexivity.
Qed.
Lemma sub_add a b : is_nan b = false -> sub a b = add a (neg b).
Proof.
  intros N. unfold sub, add, signed_sum. change (is_normal (neg b)) with (is_normal b). change (is_nan (neg b)) with (is_nan b).
  change (is_inf (neg b)) with (is_inf b). change (is_zero (neg b)) with (is_zero b). change (sign (neg b)) with (- sign b).
  change (bn_exp (neg b)) with (bn_exp b). rewrite N.
  destruct (negb (is_normal a) || negb (is_normal b)); [reflexivity|]. destruct (bn_exp a <? bn_exp b); reflexivity.
Qed.
Lemma finite_not_nan a : is_finite a = true -> is_nan a = false.
Proof. intros F. destruct (is_nan a) eqn:N; [|reflexivity]. destruct (nan_flags a N) as (_ & _ & _ & G). congruence. Qed.
Theorem sub_exact a b : canonical a -> canonical b -> is_finite a = true -> is_finite b = true ->
  stored (value a - value b) (sub a b) /\
  (value a == value b -> sub a b = signed_zero (if sign a =? - sign b then sign a else 1))%Q.
Proof.
  intros Ca Cb Fa Fb. rewrite sub_add by (apply finite_not_nan, Fb).
  destruct (add_exact a (neg b) Ca (neg_canonical b Cb) Fa Fb) as [S Z]. split.
  - eapply stored_comp; [|exact S]. rewrite neg_value. ring.
  - intros Q. apply Z. rewrite neg_value, Q. ring.
Qed.

(** Special operands of a sum. *)
Theorem add_special a b : canonical a -> canonical b ->
  ((is_nan a = true \/ is_nan b = true) -> is_nan (add a b) = true) /\
  (is_inf a = true -> is_finite b = true -> add a b = a) /\
  (is_finite a = true -> is_inf b = true -> add a b = b) /\
  (is_inf a = true -> is_inf b = true -> sign a = sign b -> add a b = a) /\
  (is_inf a = true -> is_inf b = true -> sign a <> sign b -> add a b = nan).
Proof.
  intros Ca Cb. unfold add, signed_sum. split; [|split; [|split; [|split]]].
  - intros [N|N]; destruct (nan_flags _ N) as (G & _); rewrite G, N; cbn [negb orb]; [exact N|].
    rewrite orb_true_r. destruct (is_nan a) eqn:Na; [exact Na|exact N].
  - intros I F. pose proof (inf_kind a Ca I) as K. rewrite K. destruct (flags_inf (sign a)) as (-> & _ & -> & -> & _). cbn [negb orb].
    rewrite (finite_not_nan b F). destruct (is_inf b) eqn:Ib; [|reflexivity].
    exfalso. pose proof (inf_kind b Cb Ib) as Kb. rewrite Kb in F. destruct (flags_inf (sign b)) as (_ & _ & _ & _ & G). congruence.
  - intros F I. pose proof (inf_kind b Cb I) as K. rewrite K. destruct (flags_inf (sign b)) as (-> & _ & -> & -> & _).
    cbn [negb]. rewrite orb_true_r. rewrite (finite_not_nan a F). destruct (is_inf a) eqn:Ia; [|reflexivity].
    exfalso. pose proof (inf_kind a Ca Ia) as Ka. rewrite Ka in F. destruct (flags_inf (sign a)) as (_ & _ & _ & _ & G). congruence.
  - intros Ia Ib E. pose proof (inf_kind a Ca Ia) as Ka. pose proof (inf_kind b Cb Ib) as Kb. rewrite Ka, Kb.
    destruct (flags_inf (sign a)) as (-> & _ & -> & -> & _). destruct (flags_inf (sign b)) as (_ & _ & -> & -> & _). cbn [negb orb sign infinity].
    rewrite E, Z.eqb_refl. reflexivity.
  - intros Ia Ib E. pose proof (inf_kind a Ca Ia) as Ka. pose proof (inf_kind b Cb Ib) as Kb. rewrite Ka, Kb.
    destruct (flags_inf (sign a)) as (-> & _ & -> & -> & _). destruct (flags_inf (sign b)) as (_ & _ & -> & -> & _). cbn [negb orb sign infinity].
    rewrite (proj2 (Z.eqb_neq _ _) E). reflexivity.
Qed.

(** ** Multiplication *)
Theorem mul_exact a b : canonical a -> canonical b -> is_finite a = true -> is_finite b = true ->
  stored (value a * value b) (mul a b) /\
  (value a * value b == 0 -> mul a b = signed_zero (sign a * sign b))%Q.
Proof.
  intros Ca Cb Fa Fb.
  assert (Sg : sign a * sign b = 1 \/ sign a * sign b = -1) by (destruct (canonical_sign a Ca) as [-> | ->], (canonical_sign b Cb) as [-> | ->]; cbn; auto).
  assert (SZ : mul a b = signed_zero (sign a * sign b) -> (value a * value b == 0)%Q -> stored (value a * value b) (mul a b) /\ (value a * value b == 0 -> mul a b = signed_zero (sign a * sign b))%Q).
  { intros R V. split; [|intros _; exact R]. rewrite R. apply (stored_comp 0); [rewrite V; reflexivity|].
    eapply stored_as_stored; [| |apply zero_stored, Sg]; intros H; exfalso; apply (Qlt_irrefl 0 H). }
  destruct (finite_kind a Ca Fa) as [Na|Za], (finite_kind b Cb Fb) as [Nb|Zb].
  - unfold mul. rewrite Na, Nb. cbn [negb orb].
    destruct (canonical_normal a Ca Na) as (Pa & _). destruct (canonical_normal b Cb Nb) as (Pb & _).
    pose proof (normal_exp a Ca Na). pose proof (normal_exp b Cb Nb). kf. split.
    + eapply stored_comp; [|apply canonicalize_stored; [exact Sg|nia|lia]].
      rewrite (value_normal a Na), (value_normal b Nb), pow2_plus, !inject_Z_mult. ring.
    + intros Q. exfalso. apply Qmult_integral in Q. destruct Q as [Q|Q]; [apply (normal_nonzero a Ca Na Q)|apply (normal_nonzero b Cb Nb Q)].
  - apply SZ; [|rewrite Zb, value_zero; ring].
    unfold mul. rewrite Na. rewrite Zb. destruct (flags_zero (sign b)) as (-> & Z & I & N & _). cbn [negb orb].
    destruct (normal_flags a Na) as (_ & -> & -> & _). rewrite N, I. reflexivity.
  - apply SZ; [|rewrite Za, value_zero; ring].
    unfold mul. rewrite Nb. rewrite Za. destruct (flags_zero (sign a)) as (-> & Z & I & N & _). cbn [negb orb].
    destruct (normal_flags b Nb) as (_ & -> & -> & _). rewrite N, I. reflexivity.
  - apply SZ; [|rewrite Za, value_zero; ring].
    unfold mul. rewrite Za, Zb. destruct (flags_zero (sign a)) as (-> & Z & I & N & _). destruct (flags_zero (sign b)) as (-> & Z' & I' & N' & _).
    cbn [negb orb]. rewrite N, N', I, I'. reflexivity.
Qed.
Lemma inf_flags a : is_inf a = true -> is_normal a = false /\ is_zero a = false /\ is_nan a = false /\ is_finite a = false.
Proof.
  unfold is_normal, is_zero, is_inf, is_nan, is_finite. intros H. apply Z.eqb_eq in H. rewrite H. kf.
  repeat split; try (apply Z.eqb_neq; lia); try (apply Z.ltb_ge; lia); try (apply Z.leb_gt; lia).
Qed.
Theorem mul_special a b : canonical a -> canonical b ->
  ((is_nan a = true \/ is_nan b = true) -> is_nan (mul a b) = true) /\
  (is_inf a = true -> is_zero b = true -> mul a b = nan) /\
  (is_zero a = true -> is_inf b = true -> mul a b = nan) /\
  (is_inf a = true -> is_zero b = false -> is_nan b = false -> mul a b = infinity (sign a * sign b)) /\
  (is_inf b = true -> is_zero a = false -> is_nan a = false -> mul a b = infinity (sign a * sign b)).
Proof.
  intros Ca Cb. unfold mul. split; [|split; [|split; [|split]]].
  - intros [N|N]; destruct (nan_flags _ N) as (G & _); rewrite G, N; cbn [negb orb]; [exact N|].
    rewrite orb_true_r. destruct (is_nan a) eqn:Na; [exact Na|exact N].
  - intros I Z. destruct (inf_flags a I) as (-> & _ & -> & _). rewrite Z, I. cbn [negb orb].
    assert (N : is_nan b = false) by (rewrite (zero_kind b Cb Z); apply flags_zero). rewrite N. reflexivity.
  - intros Z I. destruct (inf_flags b I) as (-> & _ & -> & _). cbn [negb]. rewrite orb_true_r.
    rewrite (zero_kind a Ca Z). destruct (flags_zero (sign a)) as (_ & Z' & I' & N & _). rewrite N, I', I, Z'. reflexivity.
  - intros I Z N. destruct (inf_flags a I) as (-> & _ & -> & _). rewrite Z, I, N. reflexivity.
  - intros I Z N. destruct (inf_flags b I) as (-> & _ & -> & _). cbn [negb]. rewrite orb_true_r, N, I, Z. destruct (is_inf a) eqn:Ia; [|reflexivity].
    destruct (inf_flags b I) as (_ & -> & _). reflexivity.
Qed.
