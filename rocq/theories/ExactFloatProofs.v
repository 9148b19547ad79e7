(** Proofs about exact floating point numbers. *)
From Coq Require Import ZArith QArith Qabs Qpower Lqa Lia Bool.
From Verif Require Import Base ExactFloatModel ExactFloatSpec ExactFloatLib.
Local Open Scope Z_scope.

Lemma k_facts : kMinExp = -200000000 /\ kMaxExp = 200000000 /\ kExpZero = 2147483645 /\ kExpInfinity = 2147483646 /\
  kExpNaN = 2147483647 /\ kMaxPrec = 67108864.
Proof. repeat split. Qed.
Ltac kf := destruct k_facts as (KMin & KMax & KZ & KI & KN & KP).
Global Opaque kMinExp kMaxExp kExpZero kExpInfinity kExpNaN kMaxPrec.

Lemma pow2_le a b : a <= b -> (pow2 a <= pow2 b)%Q.
Proof. intros H. apply Qpower_le_compat_l; [exact H|discriminate]. Qed.
Lemma pow2_lt_inv a b : (pow2 a < pow2 b)%Q -> a < b.
Proof. intros H. apply (Qpower_lt_compat_l_inv 2); [exact H|reflexivity]. Qed.
Lemma pow2_lt a b : a < b -> (pow2 a < pow2 b)%Q.
Proof. intros H. apply Qpower_lt_compat_l; [exact H|reflexivity]. Qed.
Lemma mag m e : 0 < m -> (pow2 (e + num_bits m - 1) <= inject_Z m * pow2 e)%Q /\ (inject_Z m * pow2 e < pow2 (e + num_bits m))%Q.
Proof.
  intros H. pose proof (num_bits_bounds m H) as B. pose proof (num_bits_ge1 m H). split.
  - rewrite (pow2_as (e + num_bits m - 1) e) by lia. apply val_le.
    replace (e + num_bits m - 1 - e) with (num_bits m - 1) by lia. lia.
  - rewrite (pow2_as (e + num_bits m) e) by lia. apply val_lt.
    replace (e + num_bits m - e) with (num_bits m) by lia. lia.
Qed.
Lemma mag_lt m e k : 0 < m -> (inject_Z m * pow2 e < pow2 k)%Q <-> e + num_bits m <= k.
Proof.
  intros H. destruct (mag m e H) as [L U]. split; intros C.
  - assert (e + num_bits m - 1 < k); [|lia]. apply pow2_lt_inv. eapply Qle_lt_trans; eassumption.
  - eapply Qlt_le_trans; [exact U|]. apply pow2_le. exact C.
Qed.
Lemma mag_ge m e k : 0 < m -> (pow2 k <= inject_Z m * pow2 e)%Q <-> k < e + num_bits m.
Proof.
  intros H. pose proof (mag_lt m e k H) as M. split; intros C.
  - destruct (Z_lt_le_dec k (e + num_bits m)) as [L|L]; [exact L|]. apply M in L. exfalso. apply (Qlt_not_le _ _ L C).
  - destruct (Qlt_le_dec (inject_Z m * pow2 e) (pow2 k)) as [L|L]; [|exact L]. apply M in L. lia.
Qed.

(** An odd mantissa is the shortest one. *)
Lemma odd_shortest o e m e' : 0 < o -> Z.odd o = true -> (inject_Z o * pow2 e == inject_Z m * pow2 e')%Q -> e' <= e /\ m = o * 2 ^ (e - e').
Proof.
  intros Hp Ho E. destruct (Z_le_gt_dec e' e) as [L|L].
  - split; [exact L|]. rewrite (shift_val o e e') in E by exact L. apply val_eq in E. congruence.
  - exfalso. rewrite (shift_val m e' e) in E by lia. apply val_eq in E.
    replace (e' - e) with (Z.succ (e' - e - 1)) in E by lia. rewrite Z.pow_succ_r in E by lia.
    rewrite E in Ho. rewrite !Z.odd_mul in Ho. cbn in Ho. rewrite andb_false_r in Ho. discriminate.
Qed.
Lemma fits_odd s o e p : (s = 1 \/ s = -1) -> 0 < o -> Z.odd o = true -> 0 <= p -> fits p (inject_Z (s * o) * pow2 e) <-> num_bits o <= p.
Proof.
  intros Hs Hp Ho Hn. rewrite num_bits_le by assumption. split.
  - intros (m & e' & Hm & E).
    assert (E' : (inject_Z o * pow2 e == inject_Z (s * m) * pow2 e')%Q).
    { rewrite !inject_Z_mult in *. destruct Hs as [-> | ->].
      - change (inject_Z 1) with 1%Q in *. rewrite !Qmult_1_l in *. exact E.
      - change (inject_Z (-1)) with (-1 # 1)%Q in *. setoid_replace (inject_Z o * pow2 e)%Q with (- ((-1 # 1) * inject_Z o * pow2 e))%Q by ring.
        rewrite E. ring. }
    destruct (odd_shortest o e (s * m) e' Hp Ho E') as [L Em].
    assert (0 < 2 ^ (e - e')) by (apply Z.pow_pos_nonneg; lia). destruct Hs as [-> | ->]; nia.
  - intros H. exists (s * o), e. split; [|reflexivity]. destruct Hs as [-> | ->]; lia.
Qed.

(** [stored] with the sign given. *)
Definition stored_as (s : Z) (q : Q) (r : exactfloat) : Prop :=
  canonical r /\
  (Qabs q < pow2 (kMinExp - 1) -> r = signed_zero s)%Q /\
  (pow2 kMaxExp <= Qabs q -> r = infinity s)%Q /\
  (pow2 (kMinExp - 1) <= Qabs q -> Qabs q < pow2 kMaxExp ->
     (fits kMaxPrec q -> is_normal r = true /\ value r == q) /\ (~ fits kMaxPrec q -> r = nan))%Q.

Lemma canonical_zero s : s = 1 \/ s = -1 -> canonical (signed_zero s).
Proof. intros H. split; [exact H|]. left. cbn. auto. Qed.
Lemma canonical_inf s : s = 1 \/ s = -1 -> canonical (infinity s).
Proof. intros H. split; [exact H|]. left. cbn. auto. Qed.
Lemma canonical_nan : canonical nan.
Proof. split; [left; reflexivity|]. left. cbn. auto. Qed.
Lemma abs_sm s m e : s = 1 \/ s = -1 -> 0 <= m -> (Qabs (inject_Z (s * m) * pow2 e) == inject_Z m * pow2 e)%Q.
Proof. intros Hs Hm. rewrite val_abs. replace (Z.abs (s * m)) with m; [reflexivity|]. destruct Hs as [-> | ->]; lia. Qed.

Lemma fits_comp p a b : (a == b)%Q -> fits p a -> fits p b.
Proof. intros E (m & e & H & Q). exists m, e. split; [exact H|]. rewrite <- E. exact Q. Qed.
Lemma stored_as_comp s a b r : (a == b)%Q -> stored_as s a r -> stored_as s b r.
Proof.
  intros E (C & U & O & F). split; [exact C|].
  split; [intros H; apply U; rewrite E; exact H|]. split; [intros H; apply O; rewrite E; exact H|].
  intros H1 H2. destruct F as [F1 F2]; [rewrite E; exact H1|rewrite E; exact H2|]. split.
  - intros Ft. destruct (F1 (fits_comp _ _ _ (Qeq_sym _ _ E) Ft)) as [N V]. split; [exact N|]. rewrite V. exact E.
  - intros Ft. apply F2. intros C'. apply Ft. apply (fits_comp _ _ _ E C').
Qed.

Lemma canonicalize_stored_as s m e : s = 1 \/ s = -1 -> 0 <= m -> e < kExpZero ->
  stored_as s (inject_Z (s * m) * pow2 e) (canonicalize {| sign := s; bn_exp := e; bn := m |}).
Proof.
  intros Hs Hm He. kf. unfold canonicalize, is_normal. cbn [bn_exp sign bn].
  rewrite (proj2 (Z.ltb_lt _ _) He). cbn [negb]. cbv zeta. change (exp {| sign := s; bn_exp := e; bn := m |}) with (e + num_bits m).
  destruct (Z.eqb_spec m 0) as [M0|M0].
  { rewrite !orb_true_r. change (prec (signed_zero s)) with 0. rewrite (proj2 (Z.ltb_ge _ _)) by lia.
    assert (Z0 : (Qabs (inject_Z (s * m) * pow2 e) == 0)%Q).
    { rewrite abs_sm by (lia || assumption). subst m. ring. }
    split; [apply canonical_zero, Hs|]. split; [reflexivity|].
    split; [intros H; rewrite Z0 in H; exfalso; pose proof (pow2_pos kMaxExp) as P; apply (Qlt_not_le _ _ P H)|].
    intros H; rewrite Z0 in H; exfalso; pose proof (pow2_pos (kMinExp - 1)) as P; apply (Qlt_not_le _ _ P H). }
  assert (Mp : 0 < m) by lia. pose proof (abs_sm s m e Hs Hm) as A. rewrite orb_false_r.
  destruct (Z.ltb_spec (e + num_bits m) kMinExp) as [Lo|Lo].
  { change (prec (signed_zero s)) with 0. rewrite (proj2 (Z.ltb_ge _ _)) by lia.
    split; [apply canonical_zero, Hs|]. split; [reflexivity|]. rewrite A. split.
    - intros H. apply (mag_ge m e _ Mp) in H. lia.
    - intros H. apply (mag_ge m e _ Mp) in H. lia. }
  destruct (Z.ltb_spec kMaxExp (e + num_bits m)) as [Hi|Hi].
  { change (prec (infinity s)) with 0. rewrite (proj2 (Z.ltb_ge _ _)) by lia.
    split; [apply canonical_inf, Hs|]. rewrite A. split; [|split; [reflexivity|]].
    - intros H. apply (mag_lt m e _ Mp) in H. lia.
    - intros _ H. apply (mag_lt m e _ Mp) in H. lia. }
  destruct (low_zero_spec m Mp) as (K0 & o & Ho & Op & Em & Es).
  assert (R : (if negb (Z.odd m) then if 0 <? low_zero_bits m then {| sign := s; bn_exp := e + low_zero_bits m; bn := Z.shiftr m (low_zero_bits m) |} else {| sign := s; bn_exp := e; bn := m |} else {| sign := s; bn_exp := e; bn := m |})
     = {| sign := s; bn_exp := e + low_zero_bits m; bn := o |}).
  { destruct (Z.odd m) eqn:Od; cbn [negb].
    - rewrite (low_zero_odd m Mp Od) in *. rewrite Z.pow_0_r, Z.mul_1_r in Em. rewrite Z.add_0_r, Em. reflexivity.
    - pose proof (low_zero_even m Mp Od). rewrite (proj2 (Z.ltb_lt _ _)) by lia. rewrite Es. reflexivity. }
  cbn [prec bn]. rewrite R. clear R.
  assert (NB : num_bits m = num_bits o + low_zero_bits m) by (rewrite Em at 1; apply num_bits_shift; lia).
  assert (Q : (inject_Z (s * m) * pow2 e == inject_Z (s * o) * pow2 (e + low_zero_bits m))%Q).
  { rewrite (shift_val (s * o) (e + low_zero_bits m) e) by lia. rewrite Em at 1.
    replace (e + low_zero_bits m - e) with (low_zero_bits m) by lia. rewrite Z.mul_assoc. reflexivity. }
  pose proof (num_bits_ge1 o Op) as NO.
  apply (stored_as_comp s _ _ _ (Qeq_sym _ _ Q)).
  assert (A' : (Qabs (inject_Z (s * o) * pow2 (e + low_zero_bits m)) == inject_Z o * pow2 (e + low_zero_bits m))%Q) by (apply abs_sm; [exact Hs|lia]).
  unfold prec. cbn [bn]. destruct (Z.ltb_spec kMaxPrec (num_bits o)) as [P|P].
  - split; [apply canonical_nan|]. rewrite A'. split; [|split].
    + intros H. apply (mag_lt o _ _ Op) in H. lia.
    + intros H. apply (mag_ge o _ _ Op) in H. lia.
    + intros _ _. split; [|reflexivity]. intros F. exfalso. rewrite fits_odd in F by (assumption || lia). lia.
  - split; [|rewrite A'; split; [|split]].
    + split; [exact Hs|]. right. unfold exp, prec. cbn [bn bn_exp]. repeat split; try assumption; lia.
    + intros H. apply (mag_lt o _ _ Op) in H. lia.
    + intros H. apply (mag_ge o _ _ Op) in H. lia.
    + intros _ _. split.
      * intros _. unfold value, is_normal. cbn [bn_exp sign bn]. rewrite (proj2 (Z.ltb_lt _ _)) by lia. split; reflexivity.
      * intros F. exfalso. apply F. rewrite fits_odd by (assumption || lia). exact P.
Qed.

Lemma stored_as_stored s q r : ((0 < q)%Q -> s = 1) -> ((q < 0)%Q -> s = -1) -> stored_as s q r -> stored q r.
Proof. intros P N (C & H). split; [exact C|]. exists s. split; [exact P|]. split; [exact N|]. exact H. Qed.
Lemma sm_pos s m e : s = 1 \/ s = -1 -> 0 <= m -> (0 < inject_Z (s * m) * pow2 e)%Q -> s = 1.
Proof. intros Hs Hm H. apply val_pos in H. destruct Hs as [-> | ->]; lia. Qed.
Lemma sm_neg s m e : s = 1 \/ s = -1 -> 0 <= m -> (inject_Z (s * m) * pow2 e < 0)%Q -> s = -1.
Proof. intros Hs Hm H. apply val_neg in H. destruct Hs as [-> | ->]; lia. Qed.
Lemma canonicalize_stored s m e : s = 1 \/ s = -1 -> 0 <= m -> e < kExpZero ->
  stored (inject_Z (s * m) * pow2 e) (canonicalize {| sign := s; bn_exp := e; bn := m |}).
Proof.
  intros Hs Hm He. apply (stored_as_stored s); [apply sm_pos; assumption|apply sm_neg; assumption|].
  apply canonicalize_stored_as; assumption.
Qed.
Lemma stored_comp a b r : (a == b)%Q -> stored a r -> stored b r.
Proof.
  intros E (C & s & P & N & H). apply (stored_as_stored s).
  - intros Q. apply P. rewrite E. exact Q.
  - intros Q. apply N. rewrite E. exact Q.
  - apply (stored_as_comp s a b r E). split; [exact C|exact H].
Qed.

(** Facts about canonical values. *)
Lemma canonical_sign a : canonical a -> sign a = 1 \/ sign a = -1.
Proof. intros [H _]. exact H. Qed.
Lemma canonical_normal a : canonical a -> is_normal a = true ->
  0 < bn a /\ Z.odd (bn a) = true /\ kMinExp <= exp a <= kMaxExp /\ prec a <= kMaxPrec.
Proof.
  intros [_ [[_ H]|H]] N; [|exact H]. kf. unfold is_normal in N. apply Z.ltb_lt in N. lia.
Qed.
Lemma canonical_kind a : canonical a ->
  (is_normal a = true) \/ a = signed_zero (sign a) \/ a = infinity (sign a) \/ (is_nan a = true /\ bn a = 0).
Proof.
  intros [_ [[B H]|H]]; kf.
  - right. unfold signed_zero, infinity, is_nan. destruct a as [s e m]. cbn [sign bn bn_exp] in *. subst m.
    destruct H as [-> |[-> | ->]]; [left; reflexivity|right; left; reflexivity|right; right; split; [apply Z.eqb_refl|reflexivity]].
  - left. unfold is_normal. apply Z.ltb_lt. destruct H as (Hp & _ & E & _). unfold exp in E. pose proof (num_bits_ge1 (bn a) Hp). lia.
Qed.
Lemma normal_flags a : is_normal a = true -> is_zero a = false /\ is_inf a = false /\ is_nan a = false /\ is_finite a = true.
Proof.
  unfold is_normal, is_zero, is_inf, is_nan, is_finite. intros H. apply Z.ltb_lt in H. kf.
  repeat split; try (apply Z.eqb_neq; lia). apply Z.leb_le. lia.
Qed.
Lemma value_normal a : is_normal a = true -> value a = (inject_Z (sign a * bn a) * pow2 (bn_exp a))%Q.
Proof. intros H. unfold value. rewrite H. reflexivity. Qed.
Lemma value_abs a : canonical a -> is_normal a = true -> (Qabs (value a) == inject_Z (bn a) * pow2 (bn_exp a))%Q.
Proof.
  intros C N. rewrite value_normal by exact N. apply abs_sm; [apply canonical_sign, C|].
  destruct (canonical_normal a C N) as (H & _). lia.
Qed.
Lemma value_bounds a : canonical a -> is_normal a = true ->
  (pow2 (exp a - 1) <= Qabs (value a))%Q /\ (Qabs (value a) < pow2 (exp a))%Q.
Proof.
  intros C N. rewrite value_abs by assumption. destruct (canonical_normal a C N) as (H & _).
  unfold exp. apply mag. exact H.
Qed.
Lemma normal_exp a : canonical a -> is_normal a = true -> bn_exp a < kMaxExp.
Proof.
  intros C N. destruct (canonical_normal a C N) as (H & _ & E & _). unfold exp in E. pose proof (num_bits_ge1 _ H). lia.
Qed.
Lemma normal_nonzero a : canonical a -> is_normal a = true -> ~ (value a == 0)%Q.
Proof.
  intros C N E. rewrite value_normal in E by exact N. destruct (canonical_normal a C N) as (H & _).
  setoid_replace 0%Q with (inject_Z 0 * pow2 (bn_exp a))%Q in E by ring. apply val_eq in E.
  destruct (canonical_sign a C) as [S|S]; rewrite S in E; lia.
Qed.
(** A stored canonical number is that number. *)
Lemma canonical_unique a b : canonical a -> canonical b -> is_normal a = true -> is_normal b = true -> (value a == value b)%Q -> a = b.
Proof.
  intros Ca Cb Na Nb E. destruct (canonical_normal a Ca Na) as (Pa & Oa & _). destruct (canonical_normal b Cb Nb) as (Pb & Ob & _).
  assert (S : sign a = sign b).
  { destruct (canonical_sign a Ca) as [Sa|Sa], (canonical_sign b Cb) as [Sb|Sb]; rewrite ?Sa, ?Sb; try reflexivity; exfalso;
      rewrite (value_normal a Na), (value_normal b Nb), Sa, Sb in E.
    - assert (0 < inject_Z (1 * bn a) * pow2 (bn_exp a))%Q by (apply val_pos; lia).
      assert (inject_Z (-1 * bn b) * pow2 (bn_exp b) < 0)%Q by (apply val_neg; lia). rewrite E in H. apply (Qlt_irrefl 0). eapply Qlt_trans; eassumption.
    - assert (0 < inject_Z (1 * bn b) * pow2 (bn_exp b))%Q by (apply val_pos; lia).
      assert (inject_Z (-1 * bn a) * pow2 (bn_exp a) < 0)%Q by (apply val_neg; lia). rewrite E in H0. apply (Qlt_irrefl 0). eapply Qlt_trans; eassumption. }
  assert (Q : (inject_Z (bn a) * pow2 (bn_exp a) == inject_Z (bn b) * pow2 (bn_exp b))%Q).
  { rewrite <- (value_abs a Ca Na), <- (value_abs b Cb Nb), E. reflexivity. }
  destruct (odd_shortest _ _ _ _ Pa Oa Q) as [L1 M1]. destruct (odd_shortest _ _ _ _ Pb Ob (Qeq_sym _ _ Q)) as [L2 M2].
  assert (E2 : bn_exp a = bn_exp b) by lia. rewrite E2, Z.sub_diag, Z.pow_0_r, Z.mul_1_r in M1.
  destruct a, b; cbn in *; congruence.
Qed.
Lemma stored_self a : canonical a -> is_normal a = true -> stored_as (sign a) (value a) a.
Proof.
  intros C N. destruct (canonical_normal a C N) as (Hp & Ho & He & Pr). destruct (value_bounds a C N) as [L U].
  split; [exact C|]. split; [|split].
  - intros H. exfalso. assert (exp a - 1 < kMinExp - 1); [|lia]. apply pow2_lt_inv. eapply Qle_lt_trans; eassumption.
  - intros H. exfalso. assert (kMaxExp < exp a); [|lia]. apply pow2_lt_inv. eapply Qle_lt_trans; eassumption.
  - intros _ _. split; [intros _; split; [exact N|reflexivity]|]. intros F. exfalso. apply F.
    rewrite value_normal by exact N. kf. rewrite fits_odd; [exact Pr|apply canonical_sign, C|exact Hp|exact Ho|lia].
Qed.
Lemma zero_stored s : s = 1 \/ s = -1 -> stored_as s 0 (signed_zero s).
Proof.
  intros H. split; [apply canonical_zero, H|]. change (Qabs 0) with 0%Q. split; [reflexivity|]. split.
  - intros C. exfalso. apply (Qlt_not_le _ _ (pow2_pos kMaxExp) C).
  - intros C. exfalso. apply (Qlt_not_le _ _ (pow2_pos (kMinExp - 1)) C).
Qed.
