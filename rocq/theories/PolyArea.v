(** Areas of convex polygons. *)
From Coq Require Import Reals Lra Psatz List Arith Lia Bool.
From Verif Require Import Base GeomModel GeomBase PolyModel PolySpec PolySegProofs PolyChain PolyPair PolyPass PolyPath PolyExact PolyTurning PolyVertices PolyInside PolyComplete PolyMeet.
Import ListNotations.
Open Scope R_scope.

(** Sums. *)
Fixpoint sumn (f : nat -> R) (s n : nat) : R := match n with O => 0 | S n' => f s + sumn f (S s) n' end.
Lemma sumn_map f s n : fold_right Rplus 0 (map f (seq s n)) = sumn f s n.
Proof. revert s. induction n as [|n IH]; intros s; auto. cbn [seq map fold_right sumn]. now rewrite IH. Qed.
Lemma sumn_last f s n : sumn f s (S n) = sumn f s n + f (s + n)%nat.
Proof.
  revert s. induction n as [|n IH]; intros s; [cbn [sumn]; rewrite Nat.add_0_r; ring|].
  change (sumn f s (S (S n))) with (f s + sumn f (S s) (S n)). rewrite IH. cbn [sumn].
  replace (S s + n)%nat with (s + S n)%nat by lia. ring.
Qed.
Lemma sumn_ext f g s n : (forall i, (s <= i < s + n)%nat -> f i = g i) -> sumn f s n = sumn g s n.
Proof.
  revert s. induction n as [|n IH]; intros s H; auto. cbn [sumn]. rewrite (H s) by lia. rewrite (IH (S s)); auto.
  intros i I. apply H. lia.
Qed.
Lemma sumn_le f g s n : (forall i, (s <= i < s + n)%nat -> f i <= g i) -> sumn f s n <= sumn g s n.
Proof.
  revert s. induction n as [|n IH]; intros s H; [cbn [sumn]; lra|]. cbn [sumn].
  pose proof (H s ltac:(lia)). assert (sumn f (S s) n <= sumn g (S s) n) by (apply IH; intros; apply H; lia). lra.
Qed.
Lemma sumn_pos f s n : (forall i, (s <= i < s + n)%nat -> 0 <= f i) -> 0 <= sumn f s n.
Proof.
  revert s. induction n as [|n IH]; intros s H; [cbn [sumn]; lra|]. cbn [sumn].
  pose proof (H s ltac:(lia)). assert (0 <= sumn f (S s) n) by (apply IH; intros; apply H; lia). lra.
Qed.
Lemma sumn_lin a b f g s n : sumn (fun i => a * f i + b * g i) s n = a * sumn f s n + b * sumn g s n.
Proof. revert s. induction n as [|n IH]; intros s; cbn [sumn]; [ring|]. rewrite IH. ring. Qed.
Lemma sumn_split f s n m : sumn f s (n + m) = sumn f s n + sumn f (s + n) m.
Proof.
  revert s. induction n as [|n IH]; intros s; cbn [sumn Nat.add]; [rewrite Nat.add_0_r; ring|].
  rewrite IH. replace (S s + n)%nat with (s + S n)%nat by lia. ring.
Qed.
Lemma sumn_tele f s n : sumn (fun i => f (S i) - f i) s n = f (s + n)%nat - f s.
Proof.
  revert s. induction n as [|n IH]; intros s; cbn [sumn]; [rewrite Nat.add_0_r; ring|].
  rewrite IH. replace (S s + n)%nat with (s + S n)%nat by lia. ring.
Qed.
Lemma sumn_period f n s : (forall i, f (i + n)%nat = f i) -> sumn f s n = sumn f 0 n.
Proof.
  intros H. induction s as [|s IH]; auto. rewrite <- IH.
  destruct n as [|n]; auto. rewrite (sumn_last f (S s)). cbn [sumn].
  replace (S s + n)%nat with (s + S n)%nat by lia. rewrite H. ring.
Qed.
Lemma sumn_shift f k s n : sumn (fun i => f (k + i)%nat) s n = sumn f (k + s) n.
Proof. revert s. induction n as [|n IH]; intros s; cbn [sumn]; auto. rewrite IH. now rewrite Nat.add_succ_r. Qed.

(** The sum of the turns around any point. *)
Definition rim (v : nat -> pt) (i : nat) : R := fst (v i) * snd (v (S i)) - snd (v i) * fst (v (S i)).
Lemma twice_rim P : twice_area P = sumn (rim (corner P)) 0 (length P).
Proof. unfold twice_area. apply sumn_map. Qed.
Lemma corner_period P i : corner P (i + length P) = corner P i.
Proof.
  unfold corner. destruct (Nat.eq_dec (length P) 0) as [E|E]; [now rewrite E, Nat.add_0_r|].
  f_equal. replace (i + length P)%nat with (i + 1 * length P)%nat by lia. now apply Nat.mod_add.
Qed.
Lemma rim_turn P c : twice_area P = sumn (fun i => turn c (corner P i) (corner P (S i))) 0 (length P).
Proof.
  rewrite twice_rim. set (v := corner P). set (n := length P).
  rewrite (sumn_ext (fun i => turn c (v i) (v (S i)))
    (fun i => 1 * rim v i + (-1) * ((fun i => fst c * snd (v i) - snd c * fst (v i)) (S i) - (fun i => fst c * snd (v i) - snd c * fst (v i)) i))).
  2:{ intros i _. unfold turn, rim. ring. }
  rewrite sumn_lin, (sumn_tele (fun i => fst c * snd (v i) - snd c * fst (v i))).
  replace (v (0 + n)%nat) with (v 0%nat) by (symmetry; apply corner_period). ring.
Qed.
Lemma fold_sum f : forall n s a, fold_left (fun area i => area + f i) (seq s n) a = a + sumn f s n.
Proof. induction n as [|n IH]; intros s a; cbn [seq fold_left sumn]; [ring|]. rewrite IH. ring. Qed.
Lemma fan_area P : (3 <= length P)%nat -> fan P = twice_area P.
Proof.
  intros N. unfold fan. rewrite fold_sum, Rplus_0_l, (rim_turn P (corner P 0)).
  rewrite (sumn_ext _ (fun i => turn (corner P 0) (corner P i) (corner P (S i)))).
  2:{ intros i I. rewrite !at_corner by lia. unfold cross3, cross, psub, turn; cbn [fst snd]. ring. }
  assert (E : exists k, length P = S (S k)) by (exists (length P - 2)%nat; lia). destruct E as [k E].
  replace (length P - 2)%nat with k by lia. rewrite E. rewrite sumn_last. cbn [sumn].
  replace (corner P (S (0 + S k))) with (corner P 0).
  2:{ symmetry. replace (S (0 + S k)) with (0 + length P)%nat by lia. apply corner_period. }
  unfold turn at 2 4. ring.
Qed.
Lemma twice_nonneg P : convex P -> 0 <= twice_area P.
Proof.
  intros C. pose proof (proj1 C) as N. rewrite <- fan_area by auto. unfold fan. rewrite fold_sum, Rplus_0_l.
  apply sumn_pos. intros i I. rewrite !at_corner by lia.
  replace (cross3 _ _ _) with (turn (corner P 0) (corner P i) (corner P (S i))) by (unfold cross3, cross, psub, turn; cbn [fst snd]; ring).
  left. apply triangle; auto; lia.
Qed.

(** A convex polygon goes up once and down once over a direction. *)
Lemma sweep C a m M : good C -> (forall i, m <= hgt a (cv C i) <= M) ->
  sumn (fun i => Rabs (hgt a (cv C (S i)) - hgt a (cv C i))) 0 (cn C) <= 2 * (M - m).
Proof.
  intros G B. pose proof (g_n C G) as N3. pose proof PI_RGT_0 as Pi.
  set (k := turns (a - ca C 0)). pose proof (turns_ok (a - ca C 0)) as T. fold k in T.
  set (b := a + IZR (k + 1) * (2 * PI)). assert (B0 : ca C 0 <= b) by (unfold b; rewrite plus_IZR; lra).
  assert (Hb : forall z, hgt a z = hgt b z) by (intros; unfold b; now rewrite hgt_turns).
  rewrite (sumn_ext _ (fun i => Rabs (hgt b (cv C (S i)) - hgt b (cv C i)))) by (intros; now rewrite !Hb).
  assert (B' : forall i, m <= hgt b (cv C i) <= M) by (intros; rewrite <- Hb; auto). clear B Hb. clearbody b.
  destruct (first_after C G b B0) as (L & L1 & L2).
  destruct (first_after C G (b + PI) ltac:(lra)) as (K & K1 & K2).
  assert (LK : (L <= K)%nat) by (destruct (le_lt_dec L K); auto; pose proof (a_le C G (S K) L ltac:(lia)); lra).
  assert (KL : (K < L + cn C)%nat).
  { destruct (le_lt_dec (L + cn C) K) as [H|H]; auto. exfalso.
    pose proof (a_le C G (S L + cn C) (S K) ltac:(lia)) as U. pose proof (a_le C G (L + cn C) K H) as W.
    rewrite (g_a C G) in U, W. assert (ca C (S L) + 2 * PI <= ca C K \/ K = (L + cn C)%nat) as [X|X].
    - destruct (Nat.eq_dec K (L + cn C)) as [|Ne]; auto. left. rewrite <- (g_a C G). apply a_le; auto. lia.
    - lra.
    - rewrite X, (g_a C G) in K1. pose proof (g_step C G L). lra. }
  rewrite <- (sumn_period _ _ (S L)).
  2:{ intros i. replace (S (i + cn C)) with (S i + cn C)%nat by lia. now rewrite !(g_v C G). }
  replace (cn C) with ((K - L) + (L + cn C - K))%nat at 1 by lia. rewrite sumn_split.
  replace (S L + (K - L))%nat with (S K) by lia.
  rewrite (sumn_ext _ (fun i => (fun i => hgt b (cv C i)) (S i) - (fun i => hgt b (cv C i)) i) (S L)).
  2:{ intros i I. apply Rabs_right. rewrite (g_move C G), hgt_move.
      pose proof (a_le C G (S L) i ltac:(lia)). pose proof (a_le C G i K ltac:(lia)). pose proof (g_pos C G i).
      assert (0 <= cl C i * sin (ca C i - b)) by (apply Rmult_le_pos; [lra | apply sin_ge_0; lra]). lra. }
  rewrite (sumn_ext _ (fun i => (fun i => - hgt b (cv C i)) (S i) - (fun i => - hgt b (cv C i)) i) (S K)).
  2:{ intros i I. rewrite Rabs_left1; [ring|]. rewrite (g_move C G), hgt_move.
      pose proof (a_le C G (S K) i ltac:(lia)). pose proof (a_le C G i (L + cn C) ltac:(lia)) as U. rewrite (g_a C G) in U. pose proof (g_pos C G i).
      assert (0 <= cl C i * (- sin (ca C i - b))).
      { apply Rmult_le_pos; [lra|]. assert (sin (ca C i - b) <= 0) by (apply sin_le_0; lra). lra. }
      lra. }
  rewrite (sumn_tele (fun i => hgt b (cv C i))), (sumn_tele (fun i => - hgt b (cv C i))).
  replace (S L + (K - L))%nat with (S K) by lia. replace (S K + (L + cn C - K))%nat with (S L + cn C)%nat by lia. rewrite (g_v C G).
  pose proof (B' (S K)). pose proof (B' (S L)). lra.
Qed.
(** A convex polygon in a rectangle. *)
Lemma area_in_rectangle V cx cy l w h : convex V -> (forall z, inside V z -> in_rectangle cx cy l w h z) ->
  twice_area V <= 2 * (l * w).
Proof.
  intros CV H. destruct (convex_chain V CV) as (C & G & R). pose proof (g_n C G) as N3.
  assert (EV : forall i, corner V i = cv C i) by (intros; symmetry; apply R). assert (EN : length V = cn C) by (symmetry; apply R).
  assert (Hc : forall i, in_rectangle cx cy l w h (cv C i)) by (intros; apply H, (inside_chain C V _ G R), vertex_in; auto).
  set (c := (cx, cy) : pt).
  assert (Hy : forall z, hgt h z - hgt h c = - sin h * (fst z - cx) + cos h * (snd z - cy)) by (intros; unfold hgt, c; cbn [fst snd]; ring).
  assert (Hx : forall z, hgt (h - PI / 2) z - hgt (h - PI / 2) c = cos h * (fst z - cx) + sin h * (snd z - cy)).
  { intros z. unfold hgt, c. rewrite cos_minus, sin_minus, cos_PI2, sin_PI2. cbn [fst snd]. ring. }
  assert (By : forall i, hgt h c - w / 2 <= hgt h (cv C i) <= hgt h c + w / 2).
  { intros i. destruct (Hc i) as [_ U]. rewrite <- Hy in U. apply Rabs_le_inv in U || (unfold Rabs in U; destruct (Rcase_abs _) in U); lra. }
  assert (Bx : forall i, hgt (h - PI / 2) c - l / 2 <= hgt (h - PI / 2) (cv C i) <= hgt (h - PI / 2) c + l / 2).
  { intros i. destruct (Hc i) as [U _]. rewrite <- Hx in U. unfold Rabs in U; destruct (Rcase_abs _) in U; lra. }
  assert (Lw : 0 <= l / 2 /\ 0 <= w / 2) by (pose proof (By 0%nat); pose proof (Bx 0%nat); lra).
  pose proof (sweep C h _ _ G By) as Sy. pose proof (sweep C (h - PI / 2) _ _ G Bx) as Sx.
  rewrite (rim_turn V c), EN.
  apply Rle_trans with (sumn (fun i => (w / 2) * Rabs (hgt (h - PI / 2) (cv C (S i)) - hgt (h - PI / 2) (cv C i)) +
                                       (l / 2) * Rabs (hgt h (cv C (S i)) - hgt h (cv C i))) 0 (cn C)).
  - apply sumn_le. intros i _. rewrite !EV.
    set (x := hgt (h - PI / 2) (cv C i) - hgt (h - PI / 2) c). set (y := hgt h (cv C i) - hgt h c).
    set (dx := hgt (h - PI / 2) (cv C (S i)) - hgt (h - PI / 2) (cv C i)). set (dy := hgt h (cv C (S i)) - hgt h (cv C i)).
    assert (E : turn c (cv C i) (cv C (S i)) = x * dy - y * dx).
    { unfold x, y, dx, dy, turn, hgt, c. rewrite cos_minus, sin_minus, cos_PI2, sin_PI2. cbn [fst snd].
      pose proof (sincos h) as T. set (s := sin h) in *. set (k := cos h) in *.
      replace ((fst (cv C i) - cx) * (snd (cv C (S i)) - cy) - (snd (cv C i) - cy) * (fst (cv C (S i)) - cx)) with
        ((s * s + k * k) * ((fst (cv C i) - cx) * (snd (cv C (S i)) - cy) - (snd (cv C i) - cy) * (fst (cv C (S i)) - cx))) by (rewrite T; ring).
      ring. }
    rewrite E. pose proof (By i). pose proof (Bx i).
    assert (X : Rabs x <= l / 2) by (apply Rabs_le; unfold x; lra). assert (Y : Rabs y <= w / 2) by (apply Rabs_le; unfold y; lra).
    assert (x * dy <= l / 2 * Rabs dy).
    { apply Rle_trans with (Rabs (x * dy)); [apply Rle_abs|]. rewrite Rabs_mult. apply Rmult_le_compat_r; [apply Rabs_pos | auto]. }
    assert (- (y * dx) <= w / 2 * Rabs dx).
    { apply Rle_trans with (Rabs (- (y * dx))); [apply Rle_abs|]. rewrite Rabs_Ropp, Rabs_mult. apply Rmult_le_compat_r; [apply Rabs_pos | auto]. }
    lra.
  - rewrite sumn_lin.
    apply (Rmult_le_compat_l (w / 2)) in Sx; [|lra]. apply (Rmult_le_compat_l (l / 2)) in Sy; [|lra]. lra.
Qed.
