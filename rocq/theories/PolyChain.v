(** Closed convex chains of edges, given by the angles of the edges, counted on without end. *)
From Coq Require Import Reals Lra Psatz List Arith Lia.
From Verif Require Import PolySpec.
Open Scope R_scope.

(** The height of a point over the direction a, and a move in a direction. *)
Definition hgt (a : R) (z : pt) : R := cos a * snd z - sin a * fst z.
Definition move (z : pt) (s a : R) : pt := (fst z + s * cos a, snd z + s * sin a).
Lemma hgt_move a z s b : hgt a (move z s b) = hgt a z + s * sin (b - a).
Proof. unfold hgt, move; cbn [fst snd]. rewrite sin_minus. ring. Qed.
Lemma sincos a : sin a * sin a + cos a * cos a = 1.
Proof. apply (sin2_cos2 a). Qed.
Lemma hgt_turn z s a w : turn z (move z s a) w = s * (hgt a w - hgt a z).
Proof. unfold turn, hgt, move; cbn [fst snd]. ring. Qed.
Lemma hgt_pi a z : hgt (a + PI) z = - hgt a z.
Proof. unfold hgt. rewrite neg_cos, neg_sin. ring. Qed.
Lemma hgt_2pi a z : hgt (a + 2 * PI) z = hgt a z.
Proof. unfold hgt. rewrite cos_plus, sin_plus, cos_2PI, sin_2PI. ring. Qed.
Lemma move_2pi z s a : move z s (a + 2 * PI) = move z s a.
Proof. unfold move. rewrite cos_plus, sin_plus, cos_2PI, sin_2PI. f_equal; ring. Qed.
Lemma move_0 z a : move z 0 a = z.
Proof. destruct z; unfold move; cbn [fst snd]. f_equal; ring. Qed.
Lemma move_move z s t a : move (move z s a) t a = move z (s + t) a.
Proof. unfold move; cbn [fst snd]. f_equal; ring. Qed.
Lemma move_inj z s t a : move z s a = move z t a -> s = t.
Proof.
  unfold move. intros E. apply pair_equal_spec in E as [E1 E2].
  assert (A : (s - t) * cos a = 0) by lra. assert (B : (s - t) * sin a = 0) by lra.
  assert (C : (s - t) * (sin a * sin a + cos a * cos a) = 0) by (rewrite Rmult_plus_distr_l, <- !Rmult_assoc, A, B; ring).
  rewrite sincos in C. lra.
Qed.
(** A point at the height of another lies on the line through it. *)
Lemma same_height a z w : hgt a z = hgt a w -> exists s, z = move w s a.
Proof.
  intros E. exists (cos a * (fst z - fst w) + sin a * (snd z - snd w)).
  unfold hgt in E. destruct z as [z1 z2], w as [w1 w2]; unfold move; cbn [fst snd] in *.
  assert (H : cos a * (z2 - w2) = sin a * (z1 - w1)) by lra. pose proof (sincos a) as T. f_equal.
  - transitivity (w1 + (cos a * cos a * (z1 - w1) + sin a * (cos a * (z2 - w2)))); [rewrite H|ring].
    transitivity (w1 + (sin a * sin a + cos a * cos a) * (z1 - w1)); [rewrite T|]; ring.
  - transitivity (w2 + (cos a * (sin a * (z1 - w1)) + sin a * sin a * (z2 - w2))); [rewrite <- H|ring].
    transitivity (w2 + (sin a * sin a + cos a * cos a) * (z2 - w2)); [rewrite T|]; ring.
Qed.
Lemma height_det a b z w : sin (b - a) <> 0 -> hgt a z = hgt a w -> hgt b z = hgt b w -> z = w.
Proof.
  intros N A B. destruct (same_height a z w A) as (s & ->). rewrite hgt_move in B.
  assert (s * sin (a - b) = 0) by lra. replace (a - b) with (- (b - a)) in H by ring. rewrite sin_neg in H.
  assert (s = 0); [|subst; apply move_0].
  apply Rmult_integral in H as [H|H]; auto. elim N. lra.
Qed.
(** A height between two others. *)
Lemma cone a b c z w : a <= c <= b -> b - a < PI -> hgt a w <= hgt a z -> hgt b w <= hgt b z -> hgt c w <= hgt c z.
Proof.
  intros C D A B. destruct (Req_dec a b) as [->|N]; [replace c with b by lra; auto|].
  assert (Sp : 0 < sin (b - a)) by (apply sin_gt_0; lra).
  assert (E : sin (b - a) * (hgt c z - hgt c w) =
              sin (b - c) * (hgt a z - hgt a w) + sin (c - a) * (hgt b z - hgt b w)).
  { unfold hgt. rewrite !sin_minus. destruct z as [z1 z2], w as [w1 w2]; cbn [fst snd].
    pose proof (sincos c) as Tc. pose proof (sincos a) as Ta. pose proof (sincos b) as Tb. ring. }
  assert (0 <= sin (b - c)) by (apply sin_ge_0; lra). assert (0 <= sin (c - a)) by (apply sin_ge_0; lra).
  assert (0 <= sin (b - a) * (hgt c z - hgt c w)).
  { rewrite E. apply Rplus_le_le_0_compat; apply Rmult_le_pos; lra. }
  apply Rmult_le_reg_l with (sin (b - a)); auto. lra.
Qed.
(** Signs of the sine. *)
Lemma sin_pos_range x : 0 < x <= 2 * PI -> 0 < sin x -> x < PI.
Proof.
  intros X S. destruct (Rlt_le_dec x PI) as [|G]; auto. exfalso.
  assert (sin x <= 0) by (apply sin_le_0; lra). lra.
Qed.

Record chain := { cn : nat; cv : nat -> pt; ca : nat -> R; cl : nat -> R }.
Record good (C : chain) : Prop := {
  g_n : (3 <= cn C)%nat;
  g_v : forall i, cv C (i + cn C) = cv C i;
  g_a : forall i, ca C (i + cn C) = ca C i + 2 * PI;
  g_l : forall i, cl C (i + cn C) = cl C i;
  g_step : forall i, 0 < ca C (S i) - ca C i < PI;
  g_pos : forall i, 0 < cl C i;
  g_move : forall i, cv C (S i) = move (cv C i) (cl C i) (ca C i) }.
Definition left (C : chain) (i : nat) (z : pt) : Prop := hgt (ca C i) (cv C i) <= hgt (ca C i) z.
Definition inC (C : chain) (z : pt) : Prop := forall i, left C i z.
Definition on (C : chain) (i : nat) (z : pt) : Prop := exists s, 0 <= s <= cl C i /\ z = move (cv C i) s (ca C i).

Section Chain.
Variables (C : chain) (G : good C).
Lemma a_lt i j : (i < j)%nat -> ca C i < ca C j.
Proof. intros L. induction L as [|j L IH]; [pose proof (g_step C G i) | pose proof (g_step C G j)]; lra. Qed.
Lemma a_le i j : (i <= j)%nat -> ca C i <= ca C j.
Proof. intros L. destruct (Nat.eq_dec i j) as [->|]; [lra|]. left. apply a_lt. lia. Qed.
Lemma a_lt_iff i j : ca C i < ca C j -> (i < j)%nat.
Proof. intros L. destruct (le_lt_dec j i) as [X|]; auto. apply a_le in X. lra. Qed.
Lemma v_per k i : cv C (i + k * cn C) = cv C i.
Proof. induction k; [f_equal; lia|]. rewrite <- IHk, <- (g_v C G (i + k * cn C)). f_equal. lia. Qed.
Lemma a_per k i : ca C (i + k * cn C) = ca C i + INR k * (2 * PI).
Proof.
  induction k; [cbn [INR]; rewrite Rmult_0_l, Rplus_0_r; f_equal; lia|].
  rewrite S_INR. replace (i + S k * cn C)%nat with (i + k * cn C + cn C)%nat by lia.
  rewrite (g_a C G), IHk. ring.
Qed.
Lemma hgt_per a k z : hgt (a + INR k * (2 * PI)) z = hgt a z.
Proof.
  induction k; [cbn [INR]; f_equal; ring|].
  rewrite S_INR. replace (a + (INR k + 1) * (2 * PI)) with (a + INR k * (2 * PI) + 2 * PI) by ring.
  now rewrite hgt_2pi.
Qed.
Lemma left_per k i z : left C (i + k * cn C) z <-> left C i z.
Proof. unfold left. now rewrite v_per, a_per, !hgt_per. Qed.
Lemma left_n i z : left C (i + cn C) z <-> left C i z.
Proof. pose proof (left_per 1 i z) as H. now rewrite Nat.mul_1_l in H. Qed.
Lemma on_n i z : on C (i + cn C) z <-> on C i z.
Proof. unfold on. rewrite (g_v C G), (g_a C G), (g_l C G). now setoid_rewrite move_2pi. Qed.
(** The index of an edge in a given window. *)
Lemma window L i : exists j k k', (L <= j < L + cn C)%nat /\ (j + k * cn C = i + k' * cn C)%nat.
Proof.
  pose proof (g_n C G) as N. set (n := cn C) in *. clearbody n.
  exists (L + (i + L * n - L) mod n)%nat, ((i + L * n - L) / n)%nat, L.
  pose proof (Nat.mod_upper_bound (i + L * n - L) n ltac:(lia)).
  pose proof (Nat.div_mod (i + L * n - L) n ltac:(lia)).
  assert (L <= L * n)%nat by (destruct n; nia).
  split; [lia|]. nia.
Qed.
Lemma inC_window L z : (forall i, (L <= i < L + cn C)%nat -> left C i z) -> inC C z.
Proof.
  intros H i. destruct (window L i) as (j & k & k' & J & E).
  apply (left_per k'). rewrite <- E. apply left_per. auto.
Qed.
Lemma first_after a : ca C 0 <= a -> exists L, ca C L <= a < ca C (S L).
Proof.
  intros A.
  assert (U : exists k, a < ca C k).
  { destruct (archimed ((a - ca C 0) / (2 * PI))) as [H _]. pose proof PI_RGT_0 as Pi.
    set (k := Z.to_nat (up ((a - ca C 0) / (2 * PI)))).
    exists (0 + k * cn C)%nat. rewrite a_per.
    assert (K : (a - ca C 0) / (2 * PI) < INR k).
    { destruct (Z_le_gt_dec 0 (up ((a - ca C 0) / (2 * PI)))) as [Z0|Z0].
      - unfold k. rewrite INR_IZR_INZ, Z2Nat.id; auto.
      - assert (IZR (up ((a - ca C 0) / (2 * PI))) < 0) by (apply IZR_lt; lia). pose proof (pos_INR k). lra. }
    apply (Rmult_lt_compat_r (2 * PI)) in K; [|lra].
    replace ((a - ca C 0) / (2 * PI) * (2 * PI)) with (a - ca C 0) in K by (field; lra). lra. }
  destruct U as [k U]. revert U. induction k; intros U; [lra|].
  destruct (Rlt_le_dec a (ca C k)); auto. exists k. lra.
Qed.
(** Heights along the chain. *)
Lemma up a i d : (forall j, (i <= j < i + d)%nat -> a <= ca C j <= a + PI) -> hgt a (cv C i) <= hgt a (cv C (i + d)).
Proof.
  induction d; intros H; [rewrite Nat.add_0_r; lra|].
  assert (X : hgt a (cv C i) <= hgt a (cv C (i + d))) by (apply IHd; intros; apply H; lia).
  rewrite Nat.add_succ_r, (g_move C G), hgt_move.
  assert (0 <= cl C (i + d) * sin (ca C (i + d) - a)).
  { apply Rmult_le_pos; [left; apply g_pos; auto|]. apply sin_ge_0; pose proof (H (i + d)%nat ltac:(lia)); lra. }
  lra.
Qed.
Lemma up_strict a i d : (0 < d)%nat -> a < ca C i < a + PI -> (forall j, (i <= j < i + d)%nat -> a <= ca C j <= a + PI) ->
  hgt a (cv C i) < hgt a (cv C (i + d)).
Proof.
  intros D A H. destruct d as [|d]; [lia|].
  assert (X : hgt a (cv C (S i)) <= hgt a (cv C (S i + d))) by (apply up; intros; apply H; lia).
  replace (i + S d)%nat with (S i + d)%nat by lia.
  rewrite (g_move C G i), hgt_move in X.
  assert (0 < cl C i * sin (ca C i - a)) by (apply Rmult_lt_0_compat; [apply g_pos; auto | apply sin_gt_0; lra]). lra.
Qed.
Lemma down a i d : (forall j, (i <= j < i + d)%nat -> a + PI <= ca C j <= a + 2 * PI) -> hgt a (cv C (i + d)) <= hgt a (cv C i).
Proof.
  intros H. assert (X : hgt (a + PI) (cv C i) <= hgt (a + PI) (cv C (i + d))).
  { apply up. intros j J. pose proof (H j J). lra. }
  rewrite !hgt_pi in X. lra.
Qed.
Lemma down_strict a i d : (0 < d)%nat -> a + PI < ca C i < a + 2 * PI ->
  (forall j, (i <= j < i + d)%nat -> a + PI <= ca C j <= a + 2 * PI) -> hgt a (cv C (i + d)) < hgt a (cv C i).
Proof.
  intros D A H. assert (X : hgt (a + PI) (cv C i) < hgt (a + PI) (cv C (i + d))).
  { apply up_strict; auto; [lra|]. intros j J. pose proof (H j J). lra. }
  rewrite !hgt_pi in X. lra.
Qed.
(** Every corner lies to the left of every edge, strictly unless it is an end of it. *)
Lemma vertex_window i k : (i <= k <= i + cn C)%nat -> hgt (ca C i) (cv C i) <= hgt (ca C i) (cv C k).
Proof.
  intros K. destruct (Rle_lt_dec (ca C k) (ca C i + PI)) as [A|A].
  - replace k with (i + (k - i))%nat by lia. apply up. intros j J.
    pose proof (a_le i j ltac:(lia)). pose proof (a_le j k ltac:(lia)). lra.
  - rewrite <- (g_v C G i). replace (i + cn C)%nat with (k + (i + cn C - k))%nat by lia. apply down. intros j J.
    pose proof (a_le k j ltac:(lia)). pose proof (a_le j (i + cn C) ltac:(lia)). rewrite (g_a C G) in H0. lra.
Qed.
Lemma vertex_strict i k : (S i < k < i + cn C)%nat -> hgt (ca C i) (cv C i) < hgt (ca C i) (cv C k).
Proof.
  intros K. pose proof (g_step C G i) as St.
  assert (E : hgt (ca C i) (cv C (S i)) = hgt (ca C i) (cv C i)).
  { rewrite (g_move C G), hgt_move. replace (ca C i - ca C i) with 0 by ring. rewrite sin_0. ring. }
  destruct (Rle_lt_dec (ca C k) (ca C i + PI)) as [A|A].
  - rewrite <- E. replace k with (S i + (k - S i))%nat by lia. apply up_strict; [lia | lra |].
    intros j J. pose proof (a_le i j ltac:(lia)). pose proof (a_le j k ltac:(lia)). lra.
  - rewrite <- (g_v C G i). replace (i + cn C)%nat with (k + (i + cn C - k))%nat by lia.
    pose proof (a_lt k (i + cn C) ltac:(lia)) as Lt. rewrite (g_a C G) in Lt.
    apply down_strict; [lia | lra |]. intros j J.
    pose proof (a_le k j ltac:(lia)). pose proof (a_le j (i + cn C) ltac:(lia)). rewrite (g_a C G) in H0. lra.
Qed.
Lemma vertex_in k : inC C (cv C k).
Proof.
  intros i. unfold left. destruct (window i k) as (j & k1 & k2 & J & E).
  rewrite <- (v_per k2 k), <- E, v_per. apply vertex_window. lia.
Qed.
Lemma convex_in a b s z1 z2 : inC C z1 -> inC C z2 -> z2 = move z1 s a -> 0 <= b <= s -> inC C (move z1 b a).
Proof.
  intros A B E Sr i. pose proof (A i) as Ai. pose proof (B i) as Bi. rewrite E in Bi. unfold left in *. rewrite hgt_move in *.
  destruct (Rle_lt_dec 0 (sin (a - ca C i))) as [X|X].
  - assert (0 <= b * sin (a - ca C i)) by (apply Rmult_le_pos; lra). lra.
  - assert (s * sin (a - ca C i) <= b * sin (a - ca C i)).
    { assert (0 <= (s - b) * (- sin (a - ca C i))) by (apply Rmult_le_pos; lra). lra. }
    lra.
Qed.
Lemma on_in i z : on C i z -> inC C z.
Proof.
  intros (s & Sr & ->). apply (convex_in (ca C i) s (cl C i) (cv C i) (cv C (S i))); auto using vertex_in.
  now apply g_move.
Qed.
Lemma on_height i z : on C i z -> hgt (ca C i) z = hgt (ca C i) (cv C i).
Proof. intros (s & Sr & ->). rewrite hgt_move. replace (ca C i - ca C i) with 0 by ring. rewrite sin_0. ring. Qed.
Lemma on_start i : on C i (cv C i).
Proof. exists 0. rewrite move_0. pose proof (g_pos C G i). split; auto. lra. Qed.
Lemma on_end i : on C i (cv C (S i)).
Proof. exists (cl C i). pose proof (g_pos C G i). split; [lra | now apply g_move]. Qed.
Lemma end_height i : hgt (ca C i) (cv C (S i)) = hgt (ca C i) (cv C i).
Proof. apply on_height, on_end. Qed.
Lemma height_on i z : inC C z -> hgt (ca C i) z = hgt (ca C i) (cv C i) -> on C i z.
Proof.
  intros Z E. destruct (same_height _ _ _ E) as (s & ->). exists s. split; auto.
  pose proof (g_n C G) as N. split.
  - destruct (Nat.eq_dec (i + cn C) 0) as [|_]; [lia|].
    assert (K : exists k, (i + cn C = S k)%nat) by (exists (i + cn C - 1)%nat; lia). destruct K as [k K].
    pose proof (Z k) as L. unfold left in L. rewrite hgt_move, <- (g_v C G i), K, (end_height k) in L.
    pose proof (g_step C G k) as St. rewrite <- K, (g_a C G) in St.
    assert (Sp : 0 < sin (ca C i - ca C k)).
    { rewrite <- (sin_period _ 1). cbn [INR]. apply sin_gt_0; lra. }
    destruct (Rle_lt_dec 0 s) as [|Neg]; auto. exfalso.
    assert (0 < (- s) * sin (ca C i - ca C k)) by (apply Rmult_lt_0_compat; lra). lra.
  - pose proof (Z (S i)) as L. unfold left in L. rewrite (g_move C G i), !hgt_move in L.
    pose proof (g_step C G i) as St.
    assert (Sp : 0 < sin (ca C (S i) - ca C i)) by (apply sin_gt_0; lra).
    replace (ca C i - ca C (S i)) with (- (ca C (S i) - ca C i)) in L by ring. rewrite sin_neg in L.
    destruct (Rle_lt_dec s (cl C i)) as [|Neg]; auto. exfalso.
    assert (0 < (s - cl C i) * sin (ca C (S i) - ca C i)) by (apply Rmult_lt_0_compat; lra). lra.
Qed.
(** The corner that is lowest over a direction. *)
Lemma support i a z : ca C i <= a <= ca C (S i) -> inC C z -> hgt a (cv C (S i)) <= hgt a z.
Proof.
  intros A Z. apply (cone (ca C i) (ca C (S i))); [lra | pose proof (g_step C G i); lra | | apply (Z (S i))].
  rewrite end_height. apply (Z i).
Qed.
Lemma support_top i a z : ca C i <= a + PI <= ca C (S i) -> inC C z -> hgt a z <= hgt a (cv C (S i)).
Proof. intros A Z. pose proof (support i (a + PI) z A Z) as H. rewrite !hgt_pi in H. lra. Qed.
(** Leaving the polygon: the edge crossed. *)
Lemma exit_window a c s L d : 0 <= s ->
  (forall i, (L <= i < L + d)%nat -> left C i c) ->
  (forall i, (L <= i < L + d)%nat -> left C i (move c s a)) \/
  exists i t, (L <= i < L + d)%nat /\ 0 <= t <= s /\ (forall j, (L <= j < L + d)%nat -> left C j (move c t a)) /\
    hgt (ca C i) (move c t a) = hgt (ca C i) (cv C i) /\ sin (a - ca C i) < 0.
Proof.
  intros S0. induction d; intros H; [left; intros; lia|].
  assert (Step : forall t, 0 <= t <= s -> (forall i, (L <= i < L + d)%nat -> left C i (move c t a)) ->
     ~ left C (L + d) (move c t a) ->
     exists i t', (L <= i < L + S d)%nat /\ 0 <= t' <= s /\ (forall j, (L <= j < L + S d)%nat -> left C j (move c t' a)) /\
       hgt (ca C i) (move c t' a) = hgt (ca C i) (cv C i) /\ sin (a - ca C i) < 0).
  { intros t T A B. pose proof (H (L + d)%nat ltac:(lia)) as H0. unfold left in B, H0. rewrite hgt_move in B.
    set (h := hgt (ca C (L + d)) c) in *. set (h0 := hgt (ca C (L + d)) (cv C (L + d))) in *.
    set (k := sin (a - ca C (L + d))) in *.
    assert (Kt : t * k < 0) by lra.
    assert (Kn : k < 0) by (destruct (Rlt_le_dec k 0); auto; exfalso; assert (0 <= t * k) by (apply Rmult_le_pos; lra); lra).
    assert (Tp : 0 < t) by (destruct (Rlt_le_dec 0 t); auto; replace t with 0 in Kt by lra; lra).
    set (t' := (h - h0) / - k).
    assert (Et : t' * k = h0 - h) by (unfold t'; field; lra).
    assert (T0 : 0 <= t') by (unfold t', Rdiv; apply Rmult_le_pos; [lra | left; apply Rinv_0_lt_compat; lra]).
    assert (T1 : t' <= t).
    { destruct (Rle_lt_dec t' t) as [|X]; auto. exfalso.
      assert (0 < (t' - t) * (- k)) by (apply Rmult_lt_0_compat; lra). lra. }
    exists (L + d)%nat, t'. split; [lia|]. split; [lra|]. split.
    - intros j J. unfold left. rewrite hgt_move. destruct (Nat.eq_dec j (L + d)) as [->|Nj].
      + fold h h0 k. rewrite Et. lra.
      + pose proof (A j ltac:(lia)) as Aj. pose proof (H j ltac:(lia)) as Hj. unfold left in Aj, Hj. rewrite hgt_move in Aj.
        destruct (Rle_lt_dec 0 (sin (a - ca C j))) as [X|X].
        * assert (0 <= t' * sin (a - ca C j)) by (apply Rmult_le_pos; lra). lra.
        * assert (0 <= (t - t') * (- sin (a - ca C j))) by (apply Rmult_le_pos; lra). lra.
    - split; auto. rewrite hgt_move. fold h h0 k. rewrite Et. ring. }
  destruct IHd as [A|(i & t & I & T & A & E & N)]; [intros; apply H; lia | |].
  - destruct (Rle_lt_dec (hgt (ca C (L + d)) (cv C (L + d))) (hgt (ca C (L + d)) (move c s a))) as [B|B].
    + left. intros i I. destruct (Nat.eq_dec i (L + d)) as [->|]; auto. apply A. lia.
    + right. apply (Step s); auto; [lra|]. unfold left. lra.
  - right. destruct (Rle_lt_dec (hgt (ca C (L + d)) (cv C (L + d))) (hgt (ca C (L + d)) (move c t a))) as [B|B].
    + exists i, t. split; [lia|]. split; auto. split; auto. intros j J.
      destruct (Nat.eq_dec j (L + d)) as [->|]; auto. apply A. lia.
    + apply (Step t); auto. unfold left. lra.
Qed.
Lemma exit_edge a c s : 0 <= s -> ca C 0 <= a -> inC C c ->
  inC C (move c s a) \/ exists i t, a < ca C i < a + PI /\ 0 <= t <= s /\ on C i (move c t a).
Proof.
  intros S0 A H. destruct (first_after a A) as (L & L1 & L2).
  destruct (exit_window a c s (S L) (cn C) S0) as [X|(i & t & I & T & X & E & N)]; [intros; apply H | |].
  - left. now apply (inC_window (S L)).
  - right. exists i, t. pose proof (a_le (S L) i ltac:(lia)). pose proof (a_le i (L + cn C) ltac:(lia)) as U.
    rewrite (g_a C G) in U.
    assert (ca C i - a < PI).
    { apply sin_pos_range; [lra|]. replace (ca C i - a) with (- (a - ca C i)) by ring. rewrite sin_neg. lra. }
    split; [lra|]. split; auto. apply height_on; auto. now apply (inC_window (S L)).
Qed.
End Chain.
