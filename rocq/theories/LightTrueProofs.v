(** When the code finds the lane and the crossing, and when it does not. *)
From Coq Require Import QArith Lqa ZArith List Lia Bool.
From Verif Require Import Base ResultLib MonadLib KinematicProofs RoadBoxProofs LightModel LightSpec LightProofs LightWholeProofs LightScene.
From Verif Require GeomModel GeomSceneSpec.
Import ListNotations.
Open Scope Q_scope.

Lemma foot_forward p a b t : is_foot p a b t -> 0 <= t * wc p a b.
Proof.
  intros [[T0 T1] H]. specialize (H 0 ltac:(lra)). rewrite !dist2_between in H. assert (C := cc_nonneg a b).
  assert (0 <= t * t * cc a b) by (apply Qmult_le_0_compat; [apply sqq|assumption]).
  setoid_replace (dist2 p a - 2 * 0 * wc p a b + 0 * 0 * cc a b) with (dist2 p a) in H by ring. lra.
Qed.
Lemma skew_ge p a b m : skew2 p a b m -> exists t, 0 <= t <= 1 /\ dist2 p (between a b t) <= m.
Proof.
  intros [t [F E]]. exists t. split; [apply F|]. rewrite E, !dist2_between. assert (W := foot_forward p a b t F). lra.
Qed.
Lemma abs_le (x y : Q) : 0 <= y -> x * x <= y * y -> x <= y.
Proof. intros Y H. destruct (Qlt_le_dec y x) as [L|L]; [|assumption]. exfalso. nra. Qed.
Lemma skew_le p a b t d h : 0 <= t <= 1 -> dist2 p (between a b t) <= d * d -> 0 <= d -> 0 <= h -> dist2 a b <= h * h ->
  exists m, skew2 p a b m /\ m <= (d + 2 * h) * (d + 2 * h).
Proof.
  intros T D D0 H0 H. destruct (skew_code p a b true true) as [M _].
  exists (measure p (a, true, (b, true))). split; [assumption|]. destruct M as [f [F E]]. rewrite E.
  assert (Df : dist2 p (between a b f) <= d * d) by (apply Qle_trans with (2 := D); now apply F).
  destruct F as [[F0 F1] _]. set (ex := fst p - fst (between a b f)). set (ey := snd p - snd (between a b f)).
  set (cx := fst b - fst a). set (cy := snd b - snd a).
  assert (E1 : ex * ex + ey * ey <= d * d) by exact Df.
  assert (E2 : cx * cx + cy * cy <= h * h). { unfold dist2 in H. unfold cx, cy. lra. }
  assert (E3 : dist2 p (between a b (- f)) == (ex * ex + ey * ey) + 4 * f * (ex * cx + ey * cy) + 4 * f * f * (cx * cx + cy * cy)).
  { unfold dist2, ex, ey, cx, cy, between. cbn [fst snd]. ring. }
  rewrite E3. assert (S1 := sqq cx). assert (S2 := sqq cy). assert (S3 := sqq ex). assert (S4 := sqq ey).
  assert (CS : ex * cx + ey * cy <= d * h).
  { apply abs_le; [now apply Qmult_le_0_compat|]. assert (S5 := sqq (ex * cy - ey * cx)).
    assert (P : (ex * ex + ey * ey) * (cx * cx + cy * cy) <= d * d * (h * h)) by (apply Qmult_le_compat_nonneg; split; lra). lra. }
  assert (Dh : 0 <= d * h) by now apply Qmult_le_0_compat.
  assert (A : f * (ex * cx + ey * cy) <= d * h).
  { destruct (Qlt_le_dec 0 (ex * cx + ey * cy)) as [L|L].
    - assert (0 <= (1 - f) * (ex * cx + ey * cy)) by (apply Qmult_le_0_compat; lra). lra.
    - assert (0 <= f * - (ex * cx + ey * cy)) by (apply Qmult_le_0_compat; lra). lra. }
  assert (FF : f * f <= 1) by nra.
  assert (B : f * f * (cx * cx + cy * cy) <= h * h).
  { assert (0 <= (1 - f * f) * (cx * cx + cy * cy)) by (apply Qmult_le_0_compat; lra). lra. }
  lra.
Qed.
(** An object within [d] of a segment no longer than [h] is found on that lane if all others are farther than
    [d + 2 h]. *)
Lemma lane_found r p lane id k a b t d h : In (lane, id) r -> real_segment lane k a b -> 0 <= t <= 1 ->
  0 <= d -> 0 <= h -> dist2 p (between a b t) <= d * d -> dist2 a b <= h * h ->
  (forall lane' id' k' a' b' y, In (lane', id') r -> id' <> id -> counts r lane' k' a' b' -> 0 <= y <= 1 ->
     (d + 2 * h) * (d + 2 * h) < dist2 p (between a' b' y)) ->
  forall id', drives_on r p id' -> id' = id.
Proof.
  intros Hl Hs T D0 H0 D H Far id' [i [k0 [lane0 [[l [i0 [a0 [b0 [m0 [E0 [C0 [M0 Min]]]]]]]] E1]]]].
  rewrite E0 in E1. injection E1 as -> ->. destruct (Z.eq_dec id' id) as [E|E]; [assumption|exfalso].
  apply In_nth_error in Hl. destruct Hl as [j Ej]. destruct (skew_le p a b t d h T D D0 H0 H) as [m [M Lm]].
  assert (C : counts r lane k a b) by (left; assumption).
  assert (K : m0 <= m) by (destruct (Min j k lane id a b m Ej C M) as [K|[K _]]; lra).
  destruct (skew_ge p a0 b0 m0 M0) as [y [Y Ly]]. assert (F := Far lane0 id' k0 a0 b0 y (nth_error_In _ _ E0) E C0 Y). lra.
Qed.
(** Along a straight lane that no lane has more points than, crossing is along that line. *)
Lemma straight_direction r id lane c s c0 : first_lane r id lane -> straight lane c -> (forall other, In other r -> (length (fst other) <= length lane)%nat) ->
  stop_direction r id s c0 -> exists x, 0 < x /\ forall p, along p s c0 == x * along p s c.
Proof.
  intros F St Long [lane' [k [a [b [m [F' [C [_ [-> _]]]]]]]]]. assert (lane' = lane) by now apply (first_unique r id). subst lane'.
  destruct C as [C|[_ [_ [_ [o [Ho L]]]]]].
  - destruct (St k a b C) as [x [X [E1 E2]]]. exists x. split; [assumption|]. intros p. unfold along. cbn [fst snd]. rewrite E1, E2. ring.
  - apply Long in Ho. lia.
Qed.
Lemma pos_scale x y : 0 < x -> (x * y < 0 <-> y < 0) /\ (0 < x * y <-> 0 < y).
Proof. intros X. split; split; intros H; nra. Qed.
Section Straight.
Variables (order : list Z -> list Z) (num_steps : nat) (objects : list (list vpt)) (mask : list bool).
Variables (lanes : list (list pt)) (ids : list Z) (signals : list (list signal)).
Notation r := (usable lanes ids).
Hypothesis Ho : lists_set order.
Hypothesis Hmask : length mask = length objects.
Hypothesis Hrows : forall row, In row objects -> length row = num_steps.
Hypothesis Hids : length lanes = length ids.
Hypothesis Hb : bounded lanes signals objects.
Hypothesis Husable : exists lane, In lane lanes /\ (2 <= length lane)%nat.
Hypothesis Heval : In true mask.
Hypothesis Hsteps : length signals = num_steps.
Hypothesis Htwo : (2 <= num_steps)%nat.
Lemma direction_exists id lane s : first_lane r id lane -> near_origin s -> exists c, stop_direction r id s c.
Proof.
  intros F N. assert (L := find_first r id). destruct (find_lane id _) as [row|] eqn:Ef in L.
  - destruct Hb as [B1 _]. edestruct (stop_segment_total r) as [a [b [_ D]]]; [| |exact N|exact Ef|].
    + intros l Hl. now apply (usable_in lanes ids).
    + intros l q Hl. apply B1. now apply (usable_in lanes ids).
    + eauto.
  - destruct F as [i [Hi _]]. apply nth_error_In in Hi. exfalso. now apply (L lane).
Qed.
Lemma straight_value out g row u q vq p vp id lane c s s' : compute_red_light_violation order num_steps objects mask lanes ids signals = Ok out ->
  nth_error mask g = Some true -> nth_error objects g = Some row -> (S u < num_steps)%nat ->
  nth_error row u = Some (q, vq) -> nth_error row (S u) = Some (p, vp) -> drives_on r p id ->
  first_lane r id lane -> straight lane c -> (forall other, In other r -> (length (fst other) <= length lane)%nat) ->
  shown signals u id s' -> shown signals (S u) id s -> s_stop s' = s_stop s ->
  exists b, cell_of out (GeomSceneSpec.row_of mask g) (S u) = Some b /\
    (b = true <-> vp = true /\ red s /\ along q (s_stop s) c < 0 /\ 0 < along p (s_stop s) c).
Proof.
  intros E Hg Er Hu Nq Np Dr F St Long Sh' Sh Es.
  destruct (light_value order num_steps objects mask lanes ids signals Ho Hmask Hrows Hids Hb Husable Heval Hsteps Htwo out g row (S u) E Hg Er Hu) as [b [Eb I]].
  exists b. split; [assumption|]. rewrite I. clear b Eb I. destruct (nth_length signals u ltac:(lia)) as [l' Nl']. destruct (nth_length signals (S u) ltac:(lia)) as [l Nl].
  split.
  - intros [u' [q' [vq' [p' [id' [s0 [st [c1 [c2 [E1 [H1 [H2 [H3 [H4 [H5 [H6 [H7 [H8 [H9 H10]]]]]]]]]]]]]]]]]]]. injection E1 as <-.
    assert (K1 := eq_trans (eq_sym Nq) H1). injection K1 as <- <-. assert (K2 := eq_trans (eq_sym Np) H2). injection K2 as <- ->.
    assert (id' = id) by now apply (drives_unique r p). subst id'.
    assert (Ps : (s_state s0, s_stop s0) = (s_state s, s_stop s)) by (rewrite <- (shown_code signals (S u) l id Nl s0 H4); now apply (shown_code signals (S u) l id Nl)).
    injection Ps as Ps1 Ps2. rewrite Ps2 in *.
    assert (st = s_stop s). { apply (stop_code signals u l' id Nl') in H6. rewrite (shown_code signals u l' id Nl' s' Sh') in H6. cbn [snd] in H6. congruence. }
    subst st. destruct (straight_direction r id lane c _ c2 F St Long H7) as [x [X Ex]]. destruct (straight_direction r id lane c _ c1 F St Long H9) as [y [Y Ey]].
    rewrite Ex in H8. rewrite Ey in H10. split; [reflexivity|]. split; [unfold red in *; now rewrite <- Ps1|].
    split; [now apply (pos_scale x)|now apply (pos_scale y)].
  - intros [-> [R [A1 A2]]].
    assert (N : near_origin (s_stop s)). { destruct Hb as [_ [B2 _]]. destruct Sh as [b [a [En _]]]. apply nth_error_In in En. apply (B2 _ s En). apply in_or_app. right. now left. }
    destruct (direction_exists id lane (s_stop s) F N) as [c0 D]. destruct (straight_direction r id lane c _ c0 F St Long D) as [x [X Ex]].
    exists u, q, vq, p, id, s, (s_stop s), c0, c0. split; [reflexivity|]. split; [assumption|]. split; [assumption|]. split; [assumption|]. split; [assumption|].
    split; [assumption|]. split; [left; exists s'; auto|]. split; [assumption|]. rewrite Ex. split; [now apply (pos_scale x)|]. split; [assumption|].
    rewrite Ex. now apply (pos_scale x).
Qed.
End Straight.
(** ** Errors *)
Lemma light_errors order num_steps objects mask lanes ids signals :
  (lanes = [] \/ signals = [] \/ length lanes <> length ids \/ (forall lane, In lane lanes -> (length lane < 2)%nat) ->
     compute_red_light_violation order num_steps objects mask lanes ids signals = Err ValueError) /\
  (signals <> [] -> length lanes = length ids -> (exists lane, In lane lanes /\ (2 <= length lane)%nat) ->
     (forall m, In m mask -> m = false) \/ (length mask = length objects /\ In true mask /\ length signals <> num_steps) ->
     compute_red_light_violation order num_steps objects mask lanes ids signals = Err RuntimeError).
Proof.
  unfold compute_red_light_violation. split.
  - intros H. destruct lanes as [|l0 ls] eqn:El; [reflexivity|]. rewrite <- El in *. destruct signals as [|s0 ss] eqn:Es; [reflexivity|]. rewrite <- Es in *.
    destruct (Nat.eqb (length lanes) (length ids)) eqn:E; [|reflexivity]. apply Nat.eqb_eq in E. cbn [negb].
    destruct H as [H|[H|[H|H]]]; try congruence. unfold tensorize. change (kept lanes ids) with (usable lanes ids).
    destruct (usable lanes ids) as [|x r] eqn:Er; [reflexivity|]. exfalso.
    destruct (usable_in lanes ids x) as [I L]; [rewrite Er; now left|]. apply H in I. lia.
  - intros Hs HL Hu H. destruct lanes as [|l0 ls] eqn:El; [destruct Hu as [x [[] _]]|]. rewrite <- El in *. destruct signals as [|s0 ss] eqn:Es; [congruence|]. rewrite <- Es in *.
    rewrite HL, Nat.eqb_refl. cbn [negb]. unfold tensorize. change (kept lanes ids) with (usable lanes ids).
    assert (U := usable_ne lanes ids HL Hu). destruct (usable lanes ids) as [|x r] eqn:Er; [congruence|]. cbn [bind].
    destruct H as [H|[H1 [H2 H3]]].
    + assert (Z : GeomModel.select mask objects = []).
      { clear - H. revert objects. induction mask as [|m mk IH]; intros [|o os]; try reflexivity. unfold GeomModel.select in *. cbn [combine filter fst].
        rewrite (H m (or_introl eq_refl)). apply IH. intros m' Hm. apply H. now right. }
      now rewrite Z.
    + assert (S0 := select_ne objects mask H1 H2). destruct (GeomModel.select mask objects); [congruence|].
      destruct (Nat.eqb (length signals) num_steps) eqn:E; [apply Nat.eqb_eq in E; congruence|reflexivity].
Qed.
Lemma light_one_step order objects mask lanes ids signals : length mask = length objects -> In true mask -> length signals = 1%nat ->
  length lanes = length ids -> (exists lane, In lane lanes /\ (2 <= length lane)%nat) ->
  exists out, compute_red_light_violation order 1 objects mask lanes ids signals = Ok out /\
    length out = count_occ bool_dec mask true /\ forall x, In x out -> x = [].
Proof.
  intros H1 H2 H3 HL Hu. unfold compute_red_light_violation.
  destruct lanes as [|l0 ls] eqn:El; [destruct Hu as [x [[] _]]|]. rewrite <- El in *. destruct signals as [|s0 ss] eqn:Es; [discriminate|]. rewrite <- Es in *.
  rewrite HL, Nat.eqb_refl. cbn [negb]. unfold tensorize. change (kept lanes ids) with (usable lanes ids).
  assert (U := usable_ne lanes ids HL Hu). destruct (usable lanes ids) as [|x r] eqn:Er; [congruence|]. cbn [bind].
  assert (S0 := select_ne objects mask H1 H2). destruct (GeomModel.select mask objects) as [|o os] eqn:Eo; [congruence|]. rewrite <- Eo.
  rewrite H3. cbn [Nat.eqb negb]. eexists. split; [reflexivity|]. split.
  - rewrite map_length. now apply GeomNearestProofs.select_length.
  - intros y Hy. apply in_map_iff in Hy. destruct Hy as [z [<- _]]. reflexivity.
Qed.
