(** Conversion to single precision. *)
From Coq Require Import Lqa Qpower.
From Verif Require Import Base ResultLib ListLib DeltaProofs RangeImageProofs ScenarioModel ScenarioSpec.
From Verif Require ExactFloatSpec ExactFloatLib.
Open Scope Z_scope.

Lemma p2_pos e : (0 < pow2 e)%Q. Proof. apply ExactFloatLib.pow2_pos. Qed.
Lemma p2_plus a b : (pow2 (a + b) == pow2 a * pow2 b)%Q. Proof. apply ExactFloatLib.pow2_plus. Qed.
Lemma p2_Z n : 0 <= n -> (pow2 n == inject_Z (2 ^ n))%Q. Proof. apply ExactFloatLib.pow2_Z. Qed.
Lemma p2_as e e' : e' <= e -> (pow2 e == inject_Z (2 ^ (e - e')) * pow2 e')%Q.
Proof. apply ExactFloatLib.pow2_as. Qed.

Lemma p2_mono a b : a <= b -> (pow2 a <= pow2 b)%Q.
Proof.
  intros H. rewrite (p2_as b a H). pose proof (p2_pos a) as P.
  assert (1 <= inject_Z (2 ^ (b - a)))%Q.
  { change 1%Q with (inject_Z 1). rewrite <- Zle_Qle. pose proof (Z.pow_pos_nonneg 2 (b - a)). lia. }
  nra.
Qed.

Lemma exponent_spec q : ~ (q == 0)%Q ->
  (pow2 (exponent q) <= Qabs q)%Q /\ (Qabs q < pow2 (exponent q + 1))%Q.
Proof.
  intros H. unfold exponent. set (n := Z.abs (Qnum q)). set (d := Zpos (Qden q)).
  assert (Hn : 0 < n).
  { unfold n. destruct (Z.eq_dec (Qnum q) 0) as [E|E]; [|lia].
    exfalso. apply H. unfold Qeq. rewrite E. reflexivity. }
  assert (Hd : 0 < d) by reflexivity.
  assert (Eq : (Qabs q * inject_Z d == inject_Z n)%Q).
  { unfold Qabs, d, n. destruct q as [a b]. cbn [Qnum Qden]. unfold Qeq, inject_Z, Qmult.
    cbn [Qnum Qden]. rewrite !Z.mul_1_r. rewrite Pos.mul_1_r. reflexivity. }
  destruct (Z.log2_spec n Hn) as [N1 N2]. destruct (Z.log2_spec d Hd) as [D1 D2].
  pose proof (Z.log2_nonneg n) as Ln. pose proof (Z.log2_nonneg d) as Ld.
  set (a := Z.log2 n) in *. set (b := Z.log2 d) in *.
  assert (N1' : (pow2 a <= inject_Z n)%Q) by (rewrite p2_Z by lia; rewrite <- Zle_Qle; exact N1).
  assert (N2' : (inject_Z n < pow2 (a + 1))%Q) by (rewrite p2_Z by lia; rewrite <- Zlt_Qlt; exact N2).
  assert (D1' : (pow2 b <= inject_Z d)%Q) by (rewrite p2_Z by lia; rewrite <- Zle_Qle; exact D1).
  assert (D2' : (inject_Z d < pow2 (b + 1))%Q) by (rewrite p2_Z by lia; rewrite <- Zlt_Qlt; exact D2).
  pose proof (p2_pos (a - b - 1)) as P1. pose proof (p2_pos (a - b + 1)) as P3.
  assert (U : (Qabs q < pow2 (a - b + 1))%Q).
  { destruct (Qlt_le_dec (Qabs q) (pow2 (a - b + 1))) as [L|L]; [exact L|exfalso].
    assert (E : (pow2 (a + 1) == pow2 (a - b + 1) * pow2 b)%Q)
      by (rewrite <- p2_plus; replace (a - b + 1 + b) with (a + 1) by lia; reflexivity).
    pose proof (p2_pos b). nra. }
  assert (L : (pow2 (a - b - 1) <= Qabs q)%Q).
  { destruct (Qlt_le_dec (Qabs q) (pow2 (a - b - 1))) as [L|L]; [exfalso|exact L].
    assert (E : (pow2 a == pow2 (a - b - 1) * pow2 (b + 1))%Q)
      by (rewrite <- p2_plus; replace (a - b - 1 + (b + 1)) with a by lia; reflexivity).
    pose proof (p2_pos b). pose proof (Qabs_nonneg q). nra. }
  destruct (Qle_bool (pow2 (a - b)) (Qabs q)) eqn:C.
  - apply Qle_bool_iff in C. split; [exact C|exact U].
  - split; [exact L|]. replace (a - b - 1 + 1) with (a - b) by lia.
    apply Qnot_le_lt. intros C'. apply Qle_bool_iff in C'. congruence.
Qed.

Definition grid (q : Q) : Q := pow2 (Z.max (exponent q) (-126) - 23).
Lemma grid_pos q : (0 < grid q)%Q. Proof. apply p2_pos. Qed.

Lemma f32_def q : f32 q = (inject_Z (round_half_even (q / grid q)) * grid q)%Q.
Proof. reflexivity. Qed.

(** No multiple of the grid is nearer. *)
Lemma integer_nearest x k : (Qabs (x - inject_Z (round_half_even x)) <= Qabs (x - inject_Z k))%Q.
Proof.
  pose proof (round_error x) as R. set (r := round_half_even x) in *.
  destruct (Z.eq_dec k r) as [->|N]; [apply Qle_refl|].
  apply Qabs_Qle_condition in R. destruct R as [R1 R2].
  eapply Qle_trans; [apply round_error|]. fold r.
  destruct (Z.lt_ge_cases k r) as [L|G].
  - assert (inject_Z k + 1 <= inject_Z r)%Q
      by (change 1%Q with (inject_Z 1); rewrite <- inject_Z_plus, <- Zle_Qle; lia).
    eapply Qle_trans; [|apply Qle_Qabs]. lra.
  - assert (inject_Z r + 1 <= inject_Z k)%Q
      by (change 1%Q with (inject_Z 1); rewrite <- inject_Z_plus, <- Zle_Qle; lia).
    rewrite Qabs_Qminus. eapply Qle_trans; [|apply Qle_Qabs]. lra.
Qed.

Lemma scaled_abs a u : (0 < u)%Q -> (Qabs (a * u) == Qabs a * u)%Q.
Proof. intros H. rewrite Qabs_Qmult, (Qabs_pos u) by (apply Qlt_le_weak; exact H). reflexivity. Qed.

Lemma grid_nearest q k : (Qabs (q - f32 q) <= Qabs (q - inject_Z k * grid q))%Q.
Proof.
  rewrite f32_def. pose proof (grid_pos q) as P. set (u := grid q) in *. clearbody u.
  assert (E : forall z, (q - inject_Z z * u == (q / u - inject_Z z) * u)%Q).
  { intros z. field. intros Hu. rewrite Hu in P. discriminate P. }
  rewrite !E, !(scaled_abs _ _ P).
  apply Qmult_le_compat_r; [apply integer_nearest|apply Qlt_le_weak; exact P].
Qed.

Lemma f32_error q : (Qabs (q - f32 q) <= (1#2) * grid q)%Q.
Proof.
  rewrite f32_def. pose proof (grid_pos q) as P. set (u := grid q) in *. clearbody u.
  assert (E : forall z, (q - inject_Z z * u == (q / u - inject_Z z) * u)%Q).
  { intros z. field. intros Hu. rewrite Hu in P. discriminate P. }
  rewrite E, (scaled_abs _ _ P). apply Qmult_le_compat_r; [apply round_error|apply Qlt_le_weak; exact P].
Qed.

Lemma f32_zero q : (q == 0)%Q -> (f32 q == 0)%Q.
Proof.
  intros H. rewrite f32_def. rewrite (round_half_even_int 0); [change (inject_Z 0) with 0%Q; ring|].
  generalize (grid q). intros u. rewrite H. unfold Qdiv. change (inject_Z 0) with 0%Q. ring.
Qed.

Theorem f32_is_float q : is_float (f32 q).
Proof.
  destruct (Qeq_dec q 0) as [Z0|NZ].
  { exists 0, 0. split; [reflexivity|]. split; [lia|]. rewrite (f32_zero q Z0). reflexivity. }
  destruct (exponent_spec q NZ) as [_ U]. pose proof (grid_pos q) as P.
  assert (B : Z.abs (round_half_even (q / grid q)) <= 2 ^ 24).
  { assert (G : (Qabs q <= inject_Z (2 ^ 24) * grid q)%Q).
    { apply Qle_trans with (pow2 (Z.max (exponent q) (-126) + 1)).
      - apply Qle_trans with (pow2 (exponent q + 1)); [apply Qlt_le_weak; exact U|].
        apply p2_mono. lia.
      - unfold grid. rewrite (p2_as (Z.max (exponent q) (-126) + 1) (Z.max (exponent q) (-126) - 23)) by lia.
        replace (Z.max (exponent q) (-126) + 1 - (Z.max (exponent q) (-126) - 23)) with 24 by lia.
        apply Qle_refl. }
    assert (R : forall x k, 0 <= k -> (Qabs x <= inject_Z k)%Q -> Z.abs (round_half_even x) <= k).
    { intros x k Hk Hx. apply Qabs_Qle_condition in Hx. destruct Hx as [X1 X2].
      apply round_mono in X1, X2. rewrite (round_half_even_int k (inject_Z k)) in X2 by reflexivity.
      rewrite <- inject_Z_opp, (round_half_even_int (- k) (inject_Z (- k))) in X1 by reflexivity. lia. }
    apply R; [lia|]. set (u := grid q) in *. clearbody u.
    assert (E : (Qabs (q / u) * u == Qabs q)%Q).
    { rewrite <- (scaled_abs _ _ P). apply Qabs_wd. field. intros Hu. rewrite Hu in P. discriminate P. }
    rewrite <- E in G. apply Qmult_lt_0_le_reg_r in G; assumption. }
  rewrite f32_def. unfold grid in *. set (E := Z.max (exponent q) (-126) - 23) in *.
  assert (HE : -149 <= E) by lia. set (r := round_half_even _) in *. clearbody r E.
  destruct (Z.eq_dec (Z.abs r) (2 ^ 24)) as [M|M].
  - exists (Z.sgn r * 2 ^ 23), (E + 1). split; [lia|]. split; [lia|].
    change (Qpower 2 (E + 1)) with (pow2 (E + 1)). rewrite p2_plus.
    assert (Er : r = Z.sgn r * 2 ^ 23 * 2) by (change (2 ^ 24) with (2 ^ 23 * 2) in M; lia).
    rewrite Er at 1. rewrite (inject_Z_mult (Z.sgn r * 2 ^ 23) 2). change (pow2 1) with 2%Q.
    change (inject_Z 2) with 2%Q. ring.
  - exists r, E. split; [lia|]. split; [exact HE|]. reflexivity.
Qed.

Theorem f32_nearest q y : is_float y -> (Qabs (q - f32 q) <= Qabs (q - y))%Q.
Proof.
  intros (m & e & Hm & He & Hy). change (Qpower 2 e) with (pow2 e) in Hy.
  destruct (Qeq_dec q 0) as [Z0|NZ].
  { rewrite (f32_zero q Z0), Z0. change (Qabs (0 - 0)) with 0%Q. apply Qabs_nonneg. }
  destruct (exponent_spec q NZ) as [L _].
  set (g := Z.max (exponent q) (-126) - 23).
  destruct (Z.le_gt_cases g e) as [H|H].
  - rewrite Hy. rewrite (p2_as e g H). rewrite Qmult_assoc, <- inject_Z_mult. apply grid_nearest.
  - assert (Ex : exponent q = g + 23) by lia.
    assert (Y : (Qabs y <= pow2 (exponent q))%Q).
    { rewrite Hy, (scaled_abs _ _ (p2_pos e)).
      apply Qle_trans with (inject_Z (2 ^ 24) * pow2 e)%Q.
      - apply Qmult_le_compat_r; [|apply Qlt_le_weak, p2_pos].
        change (Qabs (inject_Z m)) with (inject_Z (Z.abs m)). rewrite <- Zle_Qle. lia.
      - rewrite <- p2_Z by lia. rewrite <- p2_plus. apply p2_mono. lia. }
    assert (G : forall k, (Qabs (q - f32 q) <= Qabs (q - inject_Z k * pow2 g))%Q) by (intros; apply grid_nearest).
    assert (EG : (pow2 (exponent q) == inject_Z (2 ^ 23) * pow2 g)%Q).
    { rewrite (p2_as (exponent q) g) by lia. replace (exponent q - g) with 23 by lia. reflexivity. }
    apply Qabs_Qle_condition in Y. destruct Y as [Y1 Y2].
    destruct (Qlt_le_dec 0 q) as [Q0|Q0].
    + rewrite (Qabs_pos q) in L by (apply Qlt_le_weak; exact Q0).
      eapply Qle_trans; [apply (G (2 ^ 23))|]. rewrite <- EG.
      rewrite !Qabs_pos by lra. lra.
    + rewrite (Qabs_neg q Q0) in L.
      eapply Qle_trans; [apply (G (- 2 ^ 23))|]. rewrite inject_Z_opp.
      assert (EG' : (- inject_Z (2 ^ 23) * pow2 g == - pow2 (exponent q))%Q) by (rewrite EG; ring).
      rewrite EG'. rewrite !Qabs_neg by lra. lra.
Qed.

Theorem f32_exact y : is_float y -> (f32 y == y)%Q.
Proof.
  intros H. pose proof (f32_nearest y y H) as N.
  assert (E : (Qabs (y - y) == 0)%Q).
  { assert (E0 : (y - y == 0)%Q) by ring. rewrite (Qabs_wd _ _ E0). reflexivity. }
  rewrite E in N. pose proof (Qabs_nonneg (y - f32 y)) as P.
  assert (Z0 : (Qabs (y - f32 y) == 0)%Q) by lra.
  assert (B : (Qabs (y - f32 y) <= 0)%Q) by lra.
  apply Qabs_Qle_condition in B. lra.
Qed.

Theorem f32_int z : Z.abs z <= 2 ^ 24 -> (f32 (inject_Z z) == inject_Z z)%Q.
Proof.
  intros H. apply f32_exact. destruct (Z.eq_dec (Z.abs z) (2 ^ 24)) as [M|M].
  - exists (Z.sgn z * 2 ^ 23), 1. split; [lia|]. split; [lia|]. change (Qpower 2 1) with (inject_Z 2).
    rewrite <- inject_Z_mult. replace (Z.sgn z * 2 ^ 23 * 2) with z; [reflexivity|].
    change (2 ^ 24) with (2 ^ 23 * 2) in M. lia.
  - exists z, 0. split; [lia|]. split; [lia|]. change (Qpower 2 0) with 1%Q. ring.
Qed.

Theorem f32_relative q : (pow2 (-126) <= Qabs q)%Q \/ (q == 0)%Q ->
  (Qabs (q - f32 q) <= Qabs q * pow2 (-24))%Q.
Proof.
  intros [H|H].
  - assert (NZ : ~ (q == 0)%Q).
    { intros E. rewrite E in H. change (Qabs 0) with 0%Q in H. pose proof (p2_pos (-126)). lra. }
    destruct (exponent_spec q NZ) as [L U].
    assert (HE : -126 <= exponent q).
    { destruct (Z.le_gt_cases (-126) (exponent q)) as [G|G]; [exact G|exfalso].
      assert (pow2 (exponent q + 1) <= pow2 (-126))%Q by (apply p2_mono; lia). lra. }
    eapply Qle_trans; [apply f32_error|]. unfold grid.
    rewrite Z.max_l by lia.
    assert (E : ((1#2) * pow2 (exponent q - 23) == pow2 (exponent q) * pow2 (-24))%Q).
    { change (1#2)%Q with (pow2 (-1)). rewrite <- !p2_plus.
      replace (-1 + (exponent q - 23)) with (exponent q + -24) by lia. reflexivity. }
    rewrite E. apply Qmult_le_compat_r; [exact L|apply Qlt_le_weak, p2_pos].
  - rewrite (f32_zero q H), H. discriminate.
Qed.

Theorem f32_distinct a b : Z.abs a <= 2 ^ 24 -> Z.abs b <= 2 ^ 24 ->
  (f32 (inject_Z a) == f32 (inject_Z b))%Q -> a = b.
Proof.
  intros Ha Hb E. rewrite !f32_int in E by assumption. apply inject_Z_injective. exact E.
Qed.

Lemma trunc_error q : (Qabs (q - inject_Z (trunc q)) < 1)%Q.
Proof.
  unfold trunc. destruct (Qle_bool 0 q).
  - pose proof (Qfloor_le q). pose proof (Qlt_floor q) as U. rewrite inject_Z_plus in U.
    change (inject_Z 1) with 1%Q in U. apply Qabs_Qlt_condition. lra.
  - pose proof (Qfloor_le (- q)). pose proof (Qlt_floor (- q)) as U. rewrite inject_Z_plus in U.
    change (inject_Z 1) with 1%Q in U. rewrite inject_Z_opp. apply Qabs_Qlt_condition. lra.
Qed.

Theorem micros_error s : (pow2 (-126) <= s)%Q \/ (s == 0)%Q ->
  (Qabs (s * 1000000 - inject_Z (micros s)) < 1 + s * 1000000 * pow2 (-24))%Q.
Proof.
  intros H. assert (S0 : (0 <= s)%Q).
  { destruct H as [H|H]; [|lra]. pose proof (p2_pos (-126)). lra. }
  assert (R : (Qabs (s - f32 s) <= s * pow2 (-24))%Q).
  { eapply Qle_trans; [apply f32_relative; rewrite (Qabs_pos s S0); exact H|].
    rewrite (Qabs_pos s S0). apply Qle_refl. }
  unfold micros. pose proof (trunc_error (f32 s * 1000000)) as T.
  set (t := trunc _) in *. set (f := f32 s) in *. set (u := pow2 (-24)) in *. clearbody t f u.
  apply Qabs_Qle_condition in R. apply Qabs_Qlt_condition in T.
  apply Qabs_Qlt_condition. lra.
Qed.

(** Times within 16 s and at least four microseconds apart stay in order. *)
Theorem micros_order a b : (0 <= a)%Q -> (b <= 16)%Q -> (a + (4#1000000) <= b)%Q ->
  (pow2 (-126) <= a)%Q \/ (a == 0)%Q -> micros a < micros b.
Proof.
  intros A B D Ha. assert (Hb : (pow2 (-126) <= b)%Q \/ (b == 0)%Q).
  { left. assert (pow2 (-126) <= 4#1000000)%Q by discriminate. lra. }
  pose proof (micros_error a Ha) as Ea. pose proof (micros_error b Hb) as Eb.
  assert (U : (pow2 (-24) <= (1#16000000))%Q) by discriminate.
  set (u := pow2 (-24)) in *. assert (U0 : (0 <= u)%Q) by (unfold u; discriminate). clearbody u.
  apply Qabs_Qlt_condition in Ea, Eb. destruct Ea as [A1 A2], Eb as [B1 B2].
  assert (X1 : (a * 1000000 * u <= 1)%Q) by nra.
  assert (X2 : (b * 1000000 * u <= 1)%Q) by nra.
  rewrite Zlt_Qlt. lra.
Qed.
