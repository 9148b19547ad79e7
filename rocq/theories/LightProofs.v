(** Feet, the chosen segment and crossing a stop point. *)
From Coq Require Import QArith Lqa ZArith List Lia Bool.
From Verif Require Import Base ResultLib MonadLib KinematicProofs RoadBoxProofs LightModel LightSpec.
Import ListNotations.
Open Scope Q_scope.

Lemma qle_true a b : Qle_bool a b = true <-> a <= b. Proof. apply Qle_bool_iff. Qed.
Lemma qle_false a b : Qle_bool a b = false <-> b < a.
Proof.
  split; intros H.
  - apply Qnot_le_lt. intros C. apply qle_true in C. congruence.
  - apply not_true_is_false. intros C. apply qle_true in C. lra.
Qed.
Lemma less_true a b : less a b = true <-> a < b.
Proof. unfold less. rewrite negb_true_iff. apply qle_false. Qed.

Lemma sqq (x : Q) : 0 <= x * x. Proof. nra. Qed.
(** ** The foot of a point *)
Definition cc (a b : pt) : Q := dot (sub b a) (sub b a).
Definition wc (p a b : pt) : Q := dot (sub p a) (sub b a).
Definition code_t (p a b : pt) : Q := clip01 (divide_no_nan (wc p a b) (cc a b)).
Lemma cc_nonneg a b : 0 <= cc a b.
Proof. unfold cc, dot. set (x := fst (sub b a)). set (y := snd (sub b a)). nra. Qed.
Lemma dist2_between p a b t : dist2 p (between a b t) == dist2 p a - 2 * t * wc p a b + t * t * cc a b.
Proof. unfold dist2, between, wc, cc, dot, sub. cbn [fst snd]. ring. Qed.
Lemma cc_zero a b : cc a b == 0 -> fst b - fst a == 0 /\ snd b - snd a == 0.
Proof. unfold cc, dot, sub. cbn [fst snd]. set (x := fst b - fst a). set (y := snd b - snd a). intros H. split; nra. Qed.
Lemma code_t_spec p a b : let t := code_t p a b in 0 <= t <= 1 /\
  ((t == 0 /\ (wc p a b <= 0 \/ cc a b == 0)) \/ (t == 1 /\ cc a b <= wc p a b) \/ (t * cc a b == wc p a b)).
Proof.
  cbv zeta. unfold code_t, divide_no_nan. assert (C := cc_nonneg a b). destruct (Qeq_bool (cc a b) 0) eqn:E.
  - apply Qeq_bool_iff in E. unfold clip01. cbn. split; [lra|]. left. split; [lra|now right].
  - apply Qeq_bool_neq in E. assert (P : 0 < cc a b) by lra. set (x := wc p a b / cc a b).
    assert (X : x * cc a b == wc p a b) by (unfold x; field; lra). unfold clip01.
    destruct (Qle_bool x 0) eqn:E1; [apply qle_true in E1|apply qle_false in E1; destruct (Qle_bool 1 x) eqn:E2; [apply qle_true in E2|apply qle_false in E2]].
    + split; [lra|]. left. split; [lra|]. left. nra.
    + split; [lra|]. right. left. split; [lra|]. nra.
    + split; [lra|]. right. right. assumption.
Qed.
Lemma code_foot p a b : is_foot p a b (code_t p a b).
Proof.
  destruct (code_t_spec p a b) as [R H]. split; [assumption|]. intros t' R'. rewrite !dist2_between.
  set (t := code_t p a b) in *. set (W := wc p a b) in *. assert (P := cc_nonneg a b). set (C := cc a b) in *.
  assert (G : 0 <= (t' - t) * ((t' + t) * C - 2 * W)); [|nra].
  destruct H as [[E [K|K]]|[[E K]|K]].
  - rewrite E. nra.
  - assert (Z : W == 0). { unfold W, wc. destruct (cc_zero a b K) as [Z1 Z2]. unfold dot, sub in *. cbn [fst snd] in *. rewrite Z1, Z2. ring. }
    rewrite Z, K. lra.
  - rewrite E. assert (0 <= (1 - t') * (2 * W - (t' + 1) * C)); [|nra]. apply Qmult_le_0_compat; [lra|]. nra.
  - assert (0 <= (t' - t) * (t' - t) * C) by (apply Qmult_le_0_compat; [apply sqq|assumption]). rewrite <- K. lra.
Qed.
Lemma foot_unique p a b t t' : is_foot p a b t -> is_foot p a b t' -> 0 < cc a b -> t == t'.
Proof.
  intros [R H] [R' H'] P. assert (M := H ((t + t') / 2)). assert (M' := H' ((t + t') / 2)).
  assert (Q1 : 0 <= (t + t') / 2 <= 1) by (split; [apply Qle_shift_div_l|apply Qle_shift_div_r]; lra).
  specialize (M Q1). specialize (M' Q1). rewrite !dist2_between in M, M'. set (W := wc p a b) in *. set (C := cc a b) in *.
  assert (E : (t + t') / 2 == (1 # 2) * (t + t')) by field. rewrite E in M, M'.
  assert (K : (t - t') * (t - t') * C <= 0) by nra.
  clear - K P. assert (S0 := sqq (t - t')). destruct (Qlt_le_dec 0 ((t - t') * (t - t'))) as [L|L].
  - assert (0 < (t - t') * (t - t') * C) by (now apply Qmult_lt_0_compat). lra.
  - clear - L. set (z := t - t') in *. assert (z == 0) by nra. unfold z in *. lra.
Qed.
Lemma skew_code p a b va vb : skew2 p a b (measure p ((a, true), (b, vb))) /\ forall m, skew2 p a b m -> m == measure p ((a, va || true), (b, vb)).
Proof.
  rewrite orb_true_r. assert (E : measure p (a, true, (b, vb)) == dist2 p (between a b (- code_t p a b))).
  { unfold measure, code_t, dist2, between, dot, sub, wc, cc, dot, sub. cbn [fst snd].
    set (T := clip01 _). ring. }
  split.
  - exists (code_t p a b). split; [apply code_foot|exact E].
  - intros m [t [F Em]]. rewrite Em, E. rewrite !dist2_between. destruct (Qlt_le_dec 0 (cc a b)) as [P|P].
    + rewrite (foot_unique p a b t (code_t p a b) F (code_foot p a b) P). reflexivity.
    + assert (Z : cc a b == 0) by (assert (C := cc_nonneg a b); lra).
      assert (W : wc p a b == 0). { unfold wc. destruct (cc_zero a b Z) as [Z1 Z2]. unfold dot, sub in *. cbn [fst snd] in *. rewrite Z1, Z2. ring. }
      rewrite Z, W. ring.
Qed.
(** ** The first minimum *)
Lemma argmin_from_spec l : forall pre i best m, length pre = i -> nth_error pre best = Some m ->
  (forall j x, nth_error pre j = Some x -> m <= x /\ ((j < best)%nat -> m < x)) ->
  let k := argmin_from i best m l in exists y, nth_error (pre ++ l) k = Some y /\
    forall j x, nth_error (pre ++ l) j = Some x -> y <= x /\ ((j < k)%nat -> y < x).
Proof.
  induction l as [|x l IH]; intros pre i best m Hi Hb H; cbn [argmin_from].
  - cbv zeta. rewrite app_nil_r. exists m. auto.
  - assert (Lb : (best < length pre)%nat) by (apply nth_error_Some; congruence).
    replace (pre ++ x :: l) with ((pre ++ [x]) ++ l) by (now rewrite <- app_assoc).
    assert (AP : forall j z, nth_error (pre ++ [x]) j = Some z -> nth_error pre j = Some z \/ (j = length pre /\ z = x)).
    { intros j z Hz. destruct (Nat.lt_ge_cases j (length pre)) as [L|L].
      - rewrite nth_error_app1 in Hz by assumption. now left.
      - rewrite nth_error_app2 in Hz by assumption. destruct (j - length pre)%nat as [|n] eqn:En; cbn in Hz; [|destruct n; discriminate].
        right. split; [lia|congruence]. }
    destruct (Qle_bool m x) eqn:E; [apply qle_true in E|apply qle_false in E]; apply IH.
    + rewrite app_length. cbn. lia.
    + now rewrite nth_error_app1.
    + intros j z Hz. destruct (AP j z Hz) as [K|[-> ->]]; [now apply H|]. split; [assumption|]. lia.
    + rewrite app_length. cbn. lia.
    + subst i. rewrite nth_error_app2 by lia. now rewrite Nat.sub_diag.
    + intros j z Hz. destruct (AP j z Hz) as [K|[-> ->]].
      * destruct (H j z K) as [H1 _]. split; [lra|]. intros _. lra.
      * split; [lra|]. lia.
Qed.
Lemma argmin_spec l k : argmin l = Ok k -> exists y, nth_error l k = Some y /\
  forall j x, nth_error l j = Some x -> y <= x /\ ((j < k)%nat -> y < x).
Proof.
  destruct l as [|x l]; [discriminate|]. cbn [argmin]. intros H. apply Ok_inj in H. subst k.
  apply (argmin_from_spec l [x] 1 0 x); [reflexivity|reflexivity|].
  intros [|j] z Hz; cbn in Hz; [|destruct j; discriminate]. injection Hz as <-. split; [lra|lia].
Qed.
Lemma argmin_ok l : l <> [] -> exists k, argmin l = Ok k.
Proof. destruct l; [congruence|]. cbn. eauto. Qed.
(** Rows of the same length. *)
Lemma concat_nth {A} n (rows : list (list A)) r c : (forall row, In row rows -> length row = n) -> (c < n)%nat ->
  nth_error (concat rows) (r * n + c) = match nth_error rows r with Some row => nth_error row c | None => None end.
Proof.
  revert r. induction rows as [|row rows IH]; intros r H L; cbn [concat].
  - destruct r; cbn [nth_error]; apply nth_error_None; cbn; lia.
  - assert (Lr : length row = n) by (apply H; now left). destruct r as [|r]; cbn [nth_error].
    + rewrite nth_error_app1 by lia. reflexivity.
    + rewrite nth_error_app2 by nia. replace (S r * n + c - length row)%nat with (r * n + c)%nat by nia. apply IH; [|assumption].
      intros row' Hr. apply H. now right.
Qed.
(** ** Padded rows *)
Section Rows.
Variable r : roads.
Notation n := (max_length r).
Lemma max_acc (l : roads) : forall m, (m <= fold_left (fun m p => Nat.max m (length (fst p))) l m)%nat /\
  (forall p, In p l -> (length (fst p) <= fold_left (fun m p => Nat.max m (length (fst p))) l m)%nat) /\
  (fold_left (fun m p => Nat.max m (length (fst p))) l m = m \/ exists p, In p l /\ length (fst p) = fold_left (fun m p => Nat.max m (length (fst p))) l m).
Proof.
  induction l as [|x l IH]; intros m; cbn [fold_left].
  - split; [lia|]. split; [intros p []|now left].
  - destruct (IH (Nat.max m (length (fst x)))) as [H1 [H2 H3]]. split; [lia|]. split.
    + intros p [<-|Hp]; [lia|now apply H2].
    + destruct H3 as [H3|[p [Hp Ep]]].
      * destruct (Nat.max_spec m (length (fst x))) as [[L E]|[L E]]; [right; exists x; split; [now left|lia]|left; lia].
      * right. exists p. split; [now right|assumption].
Qed.
Lemma max_le p : In p r -> (length (fst p) <= n)%nat.
Proof. intros H. now apply (proj1 (proj2 (max_acc r 0))). Qed.
Lemma max_longer (lane : list pt) : (length lane < n)%nat <-> exists other, In other r /\ (length lane < length (fst other))%nat.
Proof.
  split.
  - intros L. destruct (max_acc r 0) as [_ [_ [H|[p [Hp E]]]]]; unfold max_length in L; [lia|]. exists p. split; [assumption|lia].
  - intros [p [Hp L]]. apply max_le in Hp. lia.
Qed.
Lemma pad_length lane : (length lane <= n)%nat -> length (pad n lane) = n.
Proof. intros L. unfold pad. rewrite app_length, map_length, repeat_length. lia. Qed.
Lemma pad_nth (lane : list pt) k : (length lane <= n)%nat -> (k < n)%nat -> nth_error (pad n lane) k =
  Some (match nth_error lane k with Some a => (a, true) | None => ((0, 0), false) end).
Proof.
  intros L K. unfold pad. destruct (nth_error lane k) as [a|] eqn:E.
  - assert (k < length lane)%nat by (apply nth_error_Some; congruence). rewrite nth_error_app1 by (now rewrite map_length).
    now rewrite nth_error_map, E.
  - apply nth_error_None in E. rewrite nth_error_app2 by (now rewrite map_length). rewrite map_length.
    rewrite nth_error_repeat by lia. reflexivity.
Qed.
Lemma segments_length {A} (row : list A) : length (combine row (tl row)) = (length row - 1)%nat.
Proof. rewrite combine_length. destruct row; cbn [tl length]; lia. Qed.
Lemma nth_tl {A} (row : list A) k : nth_error (tl row) k = nth_error row (S k).
Proof. destruct row; [now destruct k|reflexivity]. Qed.
Lemma segment_nth lane k : (length lane <= n)%nat -> (S k < n)%nat -> exists va vb a b,
  nth_error (segments (pad n lane)) k = Some ((a, va), (b, vb)) /\
  nth_error (pad n lane) k = Some (a, va) /\ nth_error (pad n lane) (S k) = Some (b, vb) /\
  ((va = true /\ counts r lane k a b) \/ (va = false /\ forall a' b', ~ counts r lane k a' b')).
Proof.
  intros L K. assert (A := pad_nth lane k L ltac:(lia)). assert (B := pad_nth lane (S k) L K).
  destruct (match nth_error lane k with Some a => (a, true) | None => ((0, 0), false) end) as [a va] eqn:Ea.
  destruct (match nth_error lane (S k) with Some a => (a, true) | None => ((0, 0), false) end) as [b vb] eqn:Eb.
  exists va, vb, a, b. split.
  { unfold segments. apply nth_combine; [assumption|]. now rewrite nth_tl. }
  split; [assumption|]. split; [assumption|]. destruct (nth_error lane k) as [x|] eqn:Ex; injection Ea as <- <-.
  - left. split; [reflexivity|]. destruct (nth_error lane (S k)) as [y|] eqn:Ey; injection Eb as <- <-.
    + left. split; assumption.
    + right. apply nth_error_None in Ey. assert (k < length lane)%nat by (apply nth_error_Some; congruence).
      split; [lia|]. split; [assumption|]. split; [reflexivity|]. apply max_longer. lia.
  - right. split; [reflexivity|]. intros a' b' [[H _]|[_ [H _]]]; congruence.
Qed.
Lemma counts_bound lane k a b : In lane (map fst r) -> counts r lane k a b -> (S k < n)%nat.
Proof.
  intros Hi [[_ H]|[E [_ [_ H]]]].
  - assert (S k < length lane)%nat by (apply nth_error_Some; congruence). apply in_map_iff in Hi. destruct Hi as [p [<- Hp]]. apply max_le in Hp. lia.
  - apply max_longer in H. lia.
Qed.
Lemma counts_code lane k a b : In lane (map fst r) -> counts r lane k a b -> exists vb, nth_error (segments (pad n lane)) k = Some ((a, true), (b, vb)) /\
  nth_error (pad n lane) k = Some (a, true) /\ nth_error (pad n lane) (S k) = Some (b, vb).
Proof.
  intros Hi H. assert (K := counts_bound lane k a b Hi H). assert (L : (length lane <= n)%nat).
  { apply in_map_iff in Hi. destruct Hi as [p [<- Hp]]. now apply max_le. }
  destruct (segment_nth lane k L K) as [va [vb [a' [b' [E1 [E2 [E3 [[-> C]|[-> C]]]]]]]]]; [|now contradiction (C a b)].
  assert (a = a' /\ b = b') as [-> ->].
  { destruct H as [[H1 H2]|[H1 [H2 [-> _]]]], C as [[C1 C2]|[C1 [C2 [-> _]]]]; try (split; congruence).
    - exfalso. assert (S k < length lane)%nat by (apply nth_error_Some; congruence). lia.
    - exfalso. assert (S k < length lane)%nat by (apply nth_error_Some; congruence). lia. }
  exists vb. auto.
Qed.
End Rows.
(** ** Sizes *)
Lemma code_small p a b vb : near_origin p -> near_origin a -> near_origin b -> measure p ((a, true), (b, vb)) < LARGE2.
Proof.
  intros [P1 P2] [A1 A2] [B1 B2]. unfold measure, LARGE2. cbn [fst snd]. fold (wc p a b). fold (cc a b). fold (code_t p a b).
  destruct (code_t_spec p a b) as [T _]. set (t := code_t p a b) in *. unfold dot, sub. cbn [fst snd].
  assert (G : forall w c, - (2000000000) <= w <= 2000000000 -> - (2000000000) <= c <= 2000000000 -> (w + c * t) * (w + c * t) <= 16000000000000000000).
  { intros w c Hw Hc. assert (- (2000000000) <= c * t <= 2000000000) by nra. nra. }
  assert (X := G (fst p - fst a) (fst b - fst a) ltac:(lra) ltac:(lra)). assert (Y := G (snd p - snd a) (snd b - snd a) ltac:(lra) ltac:(lra)).
  lra.
Qed.
