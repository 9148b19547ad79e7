(** The chosen lane and segment, the signals and the whole. *)
From Coq Require Import QArith Lqa ZArith List Lia Bool.
From Verif Require Import Base ResultLib MonadLib KinematicProofs RoadBoxProofs LightModel LightSpec LightProofs.
From Verif Require GeomModel GeomSceneSpec GeomNearestProofs.
Import ListNotations.
Open Scope Q_scope.

Lemma counts_unique r lane k a b a' b' : counts r lane k a b -> counts r lane k a' b' -> a = a' /\ b = b'.
Proof.
  intros [[H1 H2]|[H1 [H2 [-> _]]]] [[C1 C2]|[C1 [C2 [-> _]]]]; try (split; congruence);
    exfalso; assert (S k < length lane)%nat by (apply nth_error_Some; congruence); lia.
Qed.
(** ** The index of the nearest segment *)
Section Near.
Variables (r : roads) (ls : list (list pt)) (p : pt).
Notation n := (max_length r).
Hypothesis Hin : forall lane, In lane ls -> In lane (map fst r).
Hypothesis Hlen : forall lane, In lane ls -> (2 <= length lane)%nat.
Hypothesis Hnear : forall lane q, In lane ls -> In q lane -> near_origin q.
Hypothesis Hp : near_origin p.
Hypothesis Hne : ls <> [].
Lemma in_le lane : In lane ls -> (length lane <= n)%nat.
Proof. intros H. apply Hin in H. apply in_map_iff in H. destruct H as [x [<- Hx]]. now apply max_le. Qed.
Lemma some_lane : exists lane l, ls = lane :: l.
Proof. clear - Hne. destruct ls as [|lane l]; [congruence|eauto]. Qed.
Lemma n_two : (2 <= n)%nat.
Proof. clear Hnear Hp. destruct some_lane as [lane [l El]]. assert (I : In lane ls) by (rewrite El; now left). assert (A := in_le lane I). assert (B := Hlen lane I). lia. Qed.
Definition measures := map (fun row => map (measure p) (segments row)) (map (pad n) ls).
Lemma measures_rows row : In row measures -> length row = (n - 1)%nat.
Proof.
  unfold measures. rewrite map_map. intros H. apply in_map_iff in H. destruct H as [lane [<- Hl]].
  unfold segments. rewrite map_length, segments_length, pad_length by now apply in_le. reflexivity.
Qed.
Lemma measures_nth i k : (k < n - 1)%nat -> nth_error (concat measures) (i * (n - 1) + k) =
  match nth_error ls i with Some lane => option_map (measure p) (nth_error (segments (pad n lane)) k) | None => None end.
Proof.
  intros K. rewrite (concat_nth (n - 1)) by (assumption || apply measures_rows). unfold measures.
  rewrite !nth_error_map. destruct (nth_error ls i); [|reflexivity]. cbn [option_map]. now rewrite nth_error_map.
Qed.
Lemma near_counts lane k a b : In lane ls -> counts r lane k a b -> near_origin a /\ near_origin b.
Proof.
  intros Hl [[H1 H2]|[_ [H1 [-> _]]]]; apply nth_error_In in H1; (split; [now apply (Hnear lane)|]).
  - apply nth_error_In in H2. now apply (Hnear lane).
  - unfold near_origin. cbn. lra.
Qed.
Lemma nearest_total : exists ik, nearest_lane_segment_index p (map (pad n) ls) = Ok ik.
Proof.
  clear Hnear Hp. unfold nearest_lane_segment_index. fold measures. destruct (argmin_ok (concat measures)) as [f E].
  - assert (T := n_two). destruct some_lane as [lane [l El]].
    assert (L := segments_length (pad n lane)). rewrite pad_length in L by (apply in_le; rewrite El; now left).
    unfold measures. rewrite El. cbn [map concat]. unfold segments. destruct (combine (pad n lane) (tl (pad n lane))) as [|x y]; [cbn in L; lia|]. cbn [map app]. discriminate.
  - rewrite E. cbn [bind]. eauto.
Qed.
Lemma nearest_spec i k : nearest_lane_segment_index p (map (pad n) ls) = Ok (i, k) ->
  exists lane a b m, nth_error ls i = Some lane /\ counts r lane k a b /\ skew2 p a b m /\
    forall i' k' lane' a' b' m', nth_error ls i' = Some lane' -> counts r lane' k' a' b' -> skew2 p a' b' m' ->
      m < m' \/ (m == m' /\ ((i < i')%nat \/ (i = i' /\ (k <= k')%nat))).
Proof.
  intros H. unfold nearest_lane_segment_index in H. fold measures in H. dbind H f Ef. apply Ok_inj in H.
  assert (T := n_two).
  assert (Ec : match map (pad n) ls with [] => 0%nat | row :: _ => length (segments row) end = (n - 1)%nat).
  { destruct some_lane as [lane [l El]]. assert (I : In lane ls) by (rewrite El; now left). rewrite El. cbn [map]. unfold segments.
    rewrite segments_length, pad_length by (now apply in_le). reflexivity. }
  rewrite Ec in H. apply pair_equal_spec in H. destruct H as [Hi Hk].
  assert (Fk : (k < n - 1)%nat) by (subst k; apply Nat.mod_upper_bound; lia).
  assert (Ff : f = (i * (n - 1) + k)%nat) by (rewrite (Nat.div_mod f (n - 1)) by lia; subst i k; lia).
  destruct (argmin_spec _ _ Ef) as [y [Hy Hmin]]. rewrite Ff in Hy. rewrite measures_nth in Hy by assumption.
  destruct (nth_error ls i) as [lane|] eqn:El; [|discriminate].
  assert (Il : In lane ls) by now apply nth_error_In in El.
  destruct (segment_nth r lane k (in_le lane Il) ltac:(lia)) as [va [vb [a [b [E1 [E2 [E3 D]]]]]]].
  rewrite E1 in Hy. cbn [option_map] in Hy. injection Hy as Hy.
  assert (Small : forall i' k' lane' a' b' m', nth_error ls i' = Some lane' -> counts r lane' k' a' b' -> skew2 p a' b' m' ->
            m' < LARGE2 /\ exists z, z == m' /\ (k' < n - 1)%nat /\ nth_error (concat measures) (i' * (n - 1) + k') = Some z).
  { intros i' k' lane' a' b' m' El' C' M'. assert (Il' : In lane' ls) by now apply nth_error_In in El'.
    destruct (counts_code r lane' k' a' b' (Hin _ Il') C') as [vb' [F1 _]]. assert (B := counts_bound r lane' k' a' b' (Hin _ Il') C').
    destruct (near_counts lane' k' a' b' Il' C') as [Na Nb]. destruct (skew_code p a' b' true vb') as [_ U]. apply U in M'. cbn [orb] in M'.
    assert (Sm := code_small p a' b' vb' Hp Na Nb). split; [rewrite M'; exact Sm|].
    exists (measure p (a', true, (b', vb'))). split; [now symmetry|]. split; [lia|]. rewrite measures_nth by lia. now rewrite El', F1. }
  assert (Hv : va = true /\ counts r lane k a b).
  { destruct D as [D|[-> _]]; [assumption|]. exfalso. unfold measure in Hy. cbn [fst snd] in Hy.
    destruct some_lane as [lane0 [l E0]]. assert (L0 := Hlen lane0 ltac:(rewrite E0; now left)). assert (N0 : nth_error ls 0 = Some lane0) by now rewrite E0.
    destruct lane0 as [|q0 [|q1 lane0]]; cbn in L0; try lia.
    assert (C0 : counts r (q0 :: q1 :: lane0) 0 q0 q1) by (left; split; reflexivity).
    destruct (skew_code p q0 q1 true true) as [M0 _].
    destruct (Small 0%nat 0%nat _ _ _ _ N0 C0 M0) as [S0 [z [Ez [_ Hz]]]]. destruct (Hmin _ _ Hz) as [K _].
    rewrite Ez in K. rewrite <- Hy in K. lra. }
  destruct Hv as [-> C]. destruct (skew_code p a b true vb) as [M _].
  exists lane, a, b, (measure p (a, true, (b, vb))). split; [reflexivity|]. split; [assumption|]. split; [assumption|].
  intros i' k' lane' a' b' m' El' C' M'. destruct (Small i' k' lane' a' b' m' El' C' M') as [_ [z [Ez [Kz Hz]]]].
  destruct (Hmin _ _ Hz) as [K1 K2]. rewrite Hy. rewrite Ez in K1, K2.
  destruct (Nat.lt_ge_cases (i' * (n - 1) + k') f) as [L|L]; [left; auto|].
  destruct (Qlt_le_dec y m') as [L'|L']; [now left|right]. split; [apply Qle_antisym; assumption|]. subst f.
  destruct (Nat.lt_trichotomy i i') as [A|[A|A]]; [now left| |].
  - right. subst i'. split; [reflexivity|lia].
  - exfalso. nia.
Qed.
End Near.
(** ** The lane an object is on *)
Section Map.
Variable r : roads.
Notation n := (max_length r).
Notation rows := (map (fun l : list pt * Z => (snd l, pad n (fst l))) r).
Hypothesis Hlen : forall l, In l r -> (2 <= length (fst l))%nat.
Hypothesis Hnear : forall l q, In l r -> In q (fst l) -> near_origin q.
Hypothesis Hne : r <> [].
Lemma rows_lanes : map snd rows = map (pad n) (map fst r).
Proof. rewrite !map_map. reflexivity. Qed.
Lemma lanes_len lane : In lane (map fst r) -> (2 <= length lane)%nat.
Proof. intros H. apply in_map_iff in H. destruct H as [l [<- Hl]]. now apply Hlen. Qed.
Lemma lanes_near lane q : In lane (map fst r) -> In q lane -> near_origin q.
Proof. intros H. apply in_map_iff in H. destruct H as [l [<- Hl]]. now apply Hnear. Qed.
Lemma lanes_ne : map fst r <> []. Proof. destruct r; [congruence|discriminate]. Qed.
Lemma lane_exists p : near_origin p -> exists i k, nearest_lane_segment_index p (map snd rows) = Ok (i, k) /\ chosen r p i k.
Proof.
  intros Np. rewrite rows_lanes.
  destruct (nearest_total r (map fst r) p (fun _ H => H) lanes_len lanes_ne) as [[i k] E]. exists i, k. split; [assumption|].
  destruct (nearest_spec r (map fst r) p (fun _ H => H) lanes_len lanes_near Np lanes_ne i k E) as [lane [a [b [m [H1 [H2 [H3 H4]]]]]]].
  rewrite nth_error_map in H1. destruct (nth_error r i) as [[lane0 id]|] eqn:Er; [|discriminate]. injection H1 as ->.
  exists lane, id, a, b, m. split; [assumption|]. split; [assumption|]. split; [assumption|].
  intros i' k' lane' id' a' b' m' E' C' M'. apply (H4 i' k' lane' a' b' m'); try assumption. now rewrite nth_error_map, E'.
Qed.
Lemma chosen_unique p i k i' k' : chosen r p i k -> chosen r p i' k' -> i = i' /\ k = k'.
Proof. clear Hlen Hnear Hne.
  intros [lane [id [a [b [m [H1 [H2 [H3 H4]]]]]]]] [lane' [id' [a' [b' [m' [H1' [H2' [H3' H4']]]]]]]].
  destruct (H4 _ _ _ _ _ _ _ H1' H2' H3') as [K|[K L]], (H4' _ _ _ _ _ _ _ H1 H2 H3) as [K'|[K' L']]; try (exfalso; lra). lia.
Qed.
Lemma drives_unique p id id' : drives_on r p id -> drives_on r p id' -> id = id'.
Proof. clear Hlen Hnear Hne.
  intros [i [k [lane [C E]]]] [i' [k' [lane' [C' E']]]]. destruct (chosen_unique _ _ _ _ _ C C') as [-> _]. congruence.
Qed.
(** ** The segment of a stop point *)
Lemma find_first id : match find_lane id rows with
  | Some row => exists lane, first_lane r id lane /\ row = pad n lane /\ In lane (map fst r)
  | None => forall lane, ~ In (lane, id) r end.
Proof.
  generalize n. intros N. clear. induction r as [|[lane i] l IH]; cbn [map find_lane fst snd].
  - intros lane [].
  - destruct (Z.eqb i id) eqn:E.
    + apply Z.eqb_eq in E. subst i. exists lane. split; [|split; [reflexivity|now left]]. exists 0%nat. split; [reflexivity|]. intros i' lane' L. lia.
    + apply Z.eqb_neq in E. destruct (find_lane id _).
      * destruct IH as [lane' [[j [Hj Fj]] [-> Hi]]]. exists lane'. split; [|split; [reflexivity|now right]]. exists (S j). split; [exact Hj|].
        intros [|i'] lane2 L; cbn [nth_error]; [congruence|]. apply Fj. lia.
      * intros lane' [C|C]; [congruence|]. now apply (IH lane').
Qed.
Lemma first_unique id lane lane' : first_lane r id lane -> first_lane r id lane' -> lane = lane'.
Proof. clear Hlen Hnear Hne.
  intros [i [H1 H2]] [i' [H1' H2']]. destruct (Nat.lt_trichotomy i i') as [L|[L|L]].
  - exfalso. now apply (H2' i lane L).
  - subst. congruence.
  - exfalso. now apply (H2 i' lane' L).
Qed.
Lemma direction_unique id s c c' : stop_direction r id s c -> stop_direction r id s c' -> c = c'.
Proof. clear Hlen Hnear Hne.
  intros [lane [k [a [b [m [F [C [M [-> H]]]]]]]]] [lane' [k' [a' [b' [m' [F' [C' [M' [-> H']]]]]]]]].
  assert (lane = lane') by now apply (first_unique id). subst lane'.
  assert (k = k').
  { destruct (H _ _ _ _ C' M') as [K|[K L]], (H' _ _ _ _ C M) as [K'|[K' L']]; try (exfalso; lra). lia. }
  subst k'. destruct (counts_unique _ _ _ _ _ _ _ C C') as [-> ->]. reflexivity.
Qed.
Lemma stop_segment_total lane id stop : near_origin stop -> find_lane id rows = Some lane ->
  exists a b, stop_segment rows id stop = Ok (a, b) /\ stop_direction r id stop (fst b - fst a, snd b - snd a).
Proof.
  intros Ns Ef. assert (F := find_first id). rewrite Ef in F. destruct F as [l [F [-> Hi]]].
  assert (Hin : forall x, In x [l] -> In x (map fst r)) by (intros x [<-|[]]; assumption).
  assert (L1 : forall x, In x [l] -> (2 <= length x)%nat) by (intros x Hx; apply lanes_len; auto).
  assert (N1 : forall x q, In x [l] -> In q x -> near_origin q) by (intros x q Hx; apply lanes_near; auto).
  destruct (nearest_total r [l] stop Hin L1 ltac:(discriminate)) as [[i k] E].
  destruct (nearest_spec r [l] stop Hin L1 N1 Ns ltac:(discriminate) i k E) as [x [a [b [m [H1 [H2 [H3 H4]]]]]]].
  destruct i as [|i]; [|destruct i; discriminate]. injection H1 as <-.
  destruct (counts_code r l k a b Hi H2) as [vb [_ [G1 G2]]].
  exists a, b. split.
  - unfold stop_segment. rewrite Ef. cbn [bind]. change [pad n l] with (map (pad n) [l]). rewrite E. cbn [bind snd]. unfold gather. rewrite G1. cbn [bind].
    rewrite G2. reflexivity.
  - exists l, k, a, b, m. split; [assumption|]. split; [assumption|]. split; [assumption|]. split; [reflexivity|].
    intros k' a' b' m' C' M'. destruct (H4 0%nat k' l a' b' m' eq_refl C' M') as [K|[K [L|[_ L]]]]; [now left|lia|right; auto].
Qed.
Lemma stop_segment_none id stop : near_origin stop -> find_lane id rows = None -> exists s, stop_segment rows id stop = Ok s.
Proof.
  intros Ns Ef. destruct r as [|[l id0] r'] eqn:Er; [congruence|]. rewrite <- Er in *.
  assert (Hi : In l (map fst r)) by (rewrite Er; now left).
  assert (Hin : forall x, In x [l] -> In x (map fst r)) by (intros x [<-|[]]; assumption).
  assert (L1 : forall x, In x [l] -> (2 <= length x)%nat) by (intros x Hx; apply lanes_len; auto).
  assert (N1 : forall x q, In x [l] -> In q x -> near_origin q) by (intros x q Hx; apply lanes_near; auto).
  destruct (nearest_total r [l] stop Hin L1 ltac:(discriminate)) as [[i k] E].
  destruct (nearest_spec r [l] stop Hin L1 N1 Ns ltac:(discriminate) i k E) as [x [a [b [m [H1 [H2 [H3 H4]]]]]]].
  destruct i as [|i]; [|destruct i; discriminate]. injection H1 as <-.
  destruct (counts_code r l k a b Hi H2) as [vb [_ [G1 G2]]].
  unfold stop_segment. rewrite Ef. assert (G0 : gather rows 0 = Ok (id0, pad n l)) by (unfold gather; now rewrite Er).
  rewrite G0. cbn [bind snd]. change [pad n l] with (map (pad n) [l]). rewrite E. cbn [bind snd]. unfold gather. rewrite G1. cbn [bind].
  rewrite G2. cbn [bind]. eauto.
Qed.
End Map.
(** ** Crossing *)
Lemma rel_less a b p q : less (rel_t (a, b) p) (rel_t (a, b) q) = true <-> along p q (fst b - fst a, snd b - snd a) < 0.
Proof.
  rewrite less_true. unfold rel_t, divide_no_nan. cbn [fst snd]. fold (cc a b). fold (wc p a b). fold (wc q a b).
  assert (A : wc p a b - wc q a b == along p q (fst b - fst a, snd b - snd a)) by (unfold wc, along, dot, sub; cbn [fst snd]; ring).
  destruct (Qeq_bool (cc a b) 0) eqn:E.
  - apply Qeq_bool_iff in E. assert (Z : along p q (fst b - fst a, snd b - snd a) == 0).
    { destruct (cc_zero a b E) as [Z1 Z2]. unfold along. cbn [fst snd]. rewrite Z1, Z2. ring. }
    rewrite Z. split; intros; lra.
  - apply Qeq_bool_neq in E. assert (P : 0 < cc a b) by (assert (C := cc_nonneg a b); lra). split; intros H.
    + assert (H' : wc p a b / cc a b * cc a b < wc q a b / cc a b * cc a b) by (now apply Qmult_lt_r).
      assert (E1 : wc p a b / cc a b * cc a b == wc p a b) by (field; lra). assert (E2 : wc q a b / cc a b * cc a b == wc q a b) by (field; lra). lra.
    + apply (Qmult_lt_r _ _ (cc a b) P).
      assert (E1 : wc p a b / cc a b * cc a b == wc p a b) by (field; lra). assert (E2 : wc q a b / cc a b * cc a b == wc q a b) by (field; lra). lra.
Qed.
Lemma rel_more a b p q : less (rel_t (a, b) q) (rel_t (a, b) p) = true <-> 0 < along p q (fst b - fst a, snd b - snd a).
Proof.
  rewrite rel_less. assert (A : along q p (fst b - fst a, snd b - snd a) == - along p q (fst b - fst a, snd b - snd a)) by (unfold along; ring).
  rewrite A. split; intros; lra.
Qed.
(** ** Signals *)
Lemma signal_at_spec id l :
  (exists before s after, l = before ++ s :: after /\ s_lane s = id /\ (forall x, In x after -> s_lane x <> id) /\ signal_at id l = (s_state s, s_stop s)) \/
  ((forall s, In s l -> s_lane s <> id) /\ signal_at id l = (0%Z, (0, 0))).
Proof.
  unfold signal_at. induction l as [|x l IH] using rev_ind.
  - right. split; [intros s []|reflexivity].
  - rewrite fold_left_app. cbn [fold_left]. destruct (Z.eqb (s_lane x) id) eqn:E.
    + apply Z.eqb_eq in E. left. exists l, x, []. split; [reflexivity|]. split; [assumption|]. split; [intros y []|reflexivity].
    + apply Z.eqb_neq in E. destruct IH as [[b [s [a [-> [H1 [H2 H3]]]]]]|[H1 H2]].
      * left. exists b, s, (a ++ [x]). split; [now rewrite <- app_assoc|]. split; [assumption|]. split; [|assumption].
        intros y Hy. apply in_app_iff in Hy. destruct Hy as [Hy|[<-|[]]]; auto.
      * right. split; [|assumption]. intros s Hs. apply in_app_iff in Hs. destruct Hs as [Hs|[<-|[]]]; auto.
Qed.
Lemma last_unique id (b a b' a' : list signal) s s' : b ++ s :: a = b' ++ s' :: a' -> s_lane s = id -> s_lane s' = id ->
  (forall x, In x a -> s_lane x <> id) -> (forall x, In x a' -> s_lane x <> id) -> s = s'.
Proof.
  revert b'. induction b as [|x b IH]; intros [|y b'] E H1 H2 H3 H4; cbn in E.
  - congruence.
  - injection E as -> ->. exfalso. apply (H3 s'); [apply in_or_app; right; now left|assumption].
  - injection E as -> <-. exfalso. apply (H4 s); [apply in_or_app; right; now left|assumption].
  - injection E as _ E. now apply (IH b').
Qed.
Section Signals.
Variables (signals : list (list signal)) (t : nat) (l : list signal) (id : Z).
Hypothesis Hl : nth_error signals t = Some l.
Lemma shown_code s : shown signals t id s -> signal_at id l = (s_state s, s_stop s).
Proof.
  intros [b [a [E [H1 H2]]]]. rewrite Hl in E. injection E as ->.
  destruct (signal_at_spec id (b ++ s :: a)) as [[b' [s' [a' [E [H1' [H2' ->]]]]]]|[H _]].
  - assert (s = s') by (now apply (last_unique id b a b' a')). now subst.
  - exfalso. apply (H s); [apply in_or_app; right; now left|assumption].
Qed.
Lemma red_code : is_stop (signal_at id l) = true <-> exists s, shown signals t id s /\ red s.
Proof.
  unfold is_stop, LANE_STATE_ARROW_STOP, LANE_STATE_STOP. rewrite orb_true_iff, !Z.eqb_eq. split.
  - intros H. destruct (signal_at_spec id l) as [[b [s [a [-> [H1 [H2 E]]]]]]|[_ E]]; rewrite E in H; cbn [fst] in H; [|lia].
    exists s. split; [exists b, a; auto|exact H].
  - intros [s [Hs R]]. rewrite (shown_code s Hs). exact R.
Qed.
Lemma stop_code p : stop_at signals t id p <-> p = snd (signal_at id l).
Proof.
  split.
  - intros [[s [Hs ->]]|[l' [E [H ->]]]]; [now rewrite (shown_code s Hs)|]. rewrite Hl in E. injection E as <-.
    destruct (signal_at_spec id l) as [[b [s [a [-> [H1 _]]]]]|[_ ->]]; [|reflexivity].
    exfalso. apply (H s); [apply in_or_app; right; now left|assumption].
  - intros ->. destruct (signal_at_spec id l) as [[b [s [a [E [H1 [H2 ->]]]]]]|[H ->]].
    + left. exists s. split; [|reflexivity]. exists b, a. rewrite Hl, E. auto.
    + right. exists l. auto.
Qed.
End Signals.
