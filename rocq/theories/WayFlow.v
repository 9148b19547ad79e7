From Coq Require Import Reals List Arith Lra Lia Bool ZArith.
From Verif Require Import Base ResultLib ListLib WayModel WaySpec WayProofs.
Import ListNotations.
Open Scope R_scope.

(** What the waypoints of a class show, series by series. *)
Lemma nth_error_waypoints_none c size steps k : (num_waypoints c <= k)%nat ->
  nth_error (occupancy_waypoints c size steps) k = None.
Proof. intro K. apply nth_error_None. unfold occupancy_waypoints. now rewrite map_length, seq_length. Qed.
Lemma waypoints_length c size steps : length (occupancy_waypoints c size steps) = num_waypoints c.
Proof. unfold occupancy_waypoints. now rewrite map_length, seq_length. Qed.

Section Class.
Variables (c : config) (size : nat) (t : classes timestep_grids) (w : classes waypoint_grids).
Hypothesis Split : can_split c size.
Hypothesis Some_future : (0 < num_future_steps c)%nat.
Hypothesis Shaped : for_all_classes (well_shaped c size) t.
Hypothesis Made : create_ground_truth_waypoint_grids c t = Ok w.

Lemma made_shown : for_each_class (class_shown c size) t w.
Proof. destruct (create_ok c size Split Some_future t Shaped) as (w' & W & S). congruence. Qed.

Lemma by_class (P : timestep_grids -> waypoint_grids -> Prop) :
  (forall t w, well_shaped c size t -> class_shown c size t w -> P t w) -> for_each_class P t w.
Proof.
  intro H. destruct made_shown as (A & B & C). destruct Shaped as (D & E & F).
  exact (conj (H _ _ D A) (conj (H _ _ E B) (H _ _ F C))).
Qed.

Lemma occupancy_shown : for_each_class (fun t w =>
  (length (observed_occupancy w) = num_waypoints c /\ length (occluded_occupancy w) = num_waypoints c /\
   length (flow_origin_occupancy w) = num_waypoints c /\ length (flow w) = num_waypoints c) /\
  forall k, (k < num_waypoints c)%nat -> exists obs occ origin,
    nth_error (observed_occupancy w) k = Some obs /\ shows_waypoint c size 0 k (future_observed_occupancy t) obs /\
    nth_error (occluded_occupancy w) k = Some occ /\ shows_waypoint c size 0 k (future_occluded_occupancy t) occ /\
    nth_error (flow_origin_occupancy w) k = Some origin /\
    shows_waypoint c size (num_past_steps c + 1 - size) k (all_occupancy t) origin) t w.
Proof.
  apply by_class. intros u x (L1 & L2 & L3 & L4 & L5 & L6) (A & B & C & D). rewrite A, B, C, D. split.
  - rewrite !waypoints_length, map_length, seq_length. repeat split; reflexivity.
  - intros k K.
    destruct (occupancy_shows c size Split Some_future 0 (future_observed_occupancy u) k K ltac:(lia)) as (o1 & E1 & S1).
    destruct (occupancy_shows c size Split Some_future 0 (future_occluded_occupancy u) k K ltac:(lia)) as (o2 & E2 & S2).
    destruct Split as (_ & _ & P).
    destruct (occupancy_shows c size Split Some_future (num_past_steps c + 1 - size) (all_occupancy u) k K ltac:(lia)) as (o3 & E3 & S3).
    exists o1, o2, o3. repeat (split; [assumption|]). exact S3.
Qed.
End Class.

Lemma greatest_unique v v' l : greatest v l -> greatest v' l -> v = v'.
Proof. intros (A & B) (A' & B'). apply Rle_antisym; auto. Qed.
Lemma shows_unique c size from k series a b :
  shows_waypoint c size from k series a -> shows_waypoint c size from k series b -> a = b.
Proof.
  unfold shows_waypoint. destruct (cumulative_waypoints c); [|congruence].
  intros (v & -> & V) (u & -> & U). f_equal. now apply (greatest_unique _ _ _ V U).
Qed.
Lemma in_window {A} (d : A) l a n x : In x (window d l a n) <-> exists i, (i < n)%nat /\ x = nth (a + i) l d.
Proof.
  unfold window. rewrite in_map_iff. split.
  - intros (i & E & I). apply in_seq in I. exists i. split; [lia|auto].
  - intros (i & I & E). exists i. split; [auto|]. apply in_seq. lia.
Qed.

(** The origin of a waypoint is what the previous one shows. *)
Lemma origin_chain c size obs occ all k a b o :
  (0 < size <= num_past_steps c + 1)%nat -> num_future_steps c = (num_waypoints c * size)%nat ->
  (forall i, (i < num_future_steps c)%nat -> nth (num_past_steps c + 1 + i) all 0 = Rmax (nth i obs 0) (nth i occ 0)) ->
  (k + 1 < num_waypoints c)%nat ->
  shows_waypoint c size 0 k obs (Some a) -> shows_waypoint c size 0 k occ (Some b) ->
  shows_waypoint c size (num_past_steps c + 1 - size) (k + 1) all o -> o = Some (Rmax a b).
Proof.
  intros S0 F U K A B O. pose proof (end_le (num_waypoints c) size k ltac:(lia)) as E. rewrite <- F in E.
  refine (shows_unique c size (num_past_steps c + 1 - size) (k + 1) all _ _ O _).
  unfold shows_waypoint in *. destruct (cumulative_waypoints c).
  - destruct A as (a' & EA & A1 & A2). destruct B as (b' & EB & B1 & B2). injection EA as <-. injection EB as <-.
    exists (Rmax a b). split; [reflexivity|].
    assert (At : forall i, (i < size)%nat ->
      nth (num_past_steps c + 1 - size + (k + 1) * size + i) all 0 = Rmax (nth (0 + k * size + i) obs 0) (nth (0 + k * size + i) occ 0)).
    { intros i I. rewrite <- U by lia. f_equal. lia. }
    split.
    + apply in_window. apply in_window in A1. apply in_window in B1.
      destruct A1 as (i & I & ->). destruct B1 as (j & J & ->).
      destruct (Rle_dec (nth (0 + k * size + i) obs 0) (nth (0 + k * size + j) occ 0)) as [L|L].
      * exists j. split; [exact J|]. rewrite (At j J).
        assert (X : nth (0 + k * size + j) obs 0 <= nth (0 + k * size + i) obs 0) by (apply A2, in_window; eauto).
        rewrite !Rmax_right; lra.
      * exists i. split; [exact I|]. rewrite (At i I).
        assert (X : nth (0 + k * size + i) occ 0 <= nth (0 + k * size + j) occ 0) by (apply B2, in_window; eauto).
        rewrite !Rmax_left; lra.
    + intros u H. apply in_window in H. destruct H as (i & I & ->). rewrite (At i I).
      assert (X : nth (0 + k * size + i) obs 0 <= a) by (apply A2, in_window; eauto).
      assert (Y : nth (0 + k * size + i) occ 0 <= b) by (apply B2, in_window; eauto).
      apply Rmax_lub; [eapply Rle_trans; [exact X|apply Rmax_l]|eapply Rle_trans; [exact Y|apply Rmax_r]].
  - injection A as ->. injection B as ->. f_equal. rewrite <- U by lia. f_equal. lia.
Qed.

(** The mean flow, component by component. *)
Lemma total_sum f l : reduce_sum (map f l) = total f l.
Proof. induction l as [|x l IH]; [reflexivity|].
  change (f x + reduce_sum (map f l) = f x + total f l). now rewrite IH. Qed.
Lemma total_nonzero f l : total f l = total f (filter (fun v => nonzero (f v)) l).
Proof.
  induction l as [|x l IH]; [reflexivity|]. cbn [filter].
  change (total f (x :: l)) with (f x + total f l). rewrite IH.
  unfold nonzero at 2. destruct (Req_EM_T (f x) 0) as [E|E]; [|reflexivity]. rewrite E. ring.
Qed.
Lemma count_nonzero (f : R * R -> R) l : reduce_sum (map (fun v => not_equal_zero (f v)) l) = INR (length (filter (fun v => nonzero (f v)) l)).
Proof.
  induction l as [|x l IH]; [reflexivity|]. cbn [map reduce_sum fold_right filter]. fold (reduce_sum (map (fun v => not_equal_zero (f v)) l)).
  rewrite IH. unfold not_equal_zero, nonzero at 2. destruct (Req_EM_T (f x) 0); [lra|]. cbn [length]. rewrite S_INR. lra.
Qed.
Lemma mean_flow_value seg : mean_flow seg =
  (mean_where (fun v => nonzero (fst v)) fst seg, mean_where (fun v => nonzero (snd v)) snd seg).
Proof.
  assert (H : forall f, divide_no_nan (reduce_sum (map f seg)) (reduce_sum (map (fun v => not_equal_zero (f v)) seg)) =
    mean_where (fun v => nonzero (f v)) f seg).
  { intro f. rewrite count_nonzero, total_sum, total_nonzero. unfold mean_where, divide_no_nan.
    destruct (filter (fun v => nonzero (f v)) seg) as [|x l] eqn:E.
    - cbn. destruct (Req_EM_T 0 0); [reflexivity|lra].
    - destruct (Req_EM_T (INR (length (x :: l))) 0) as [Z|Z]; [|reflexivity].
      exfalso. apply (not_0_INR (length (x :: l))); [discriminate|exact Z]. }
  unfold mean_flow. now rewrite !H.
Qed.
Lemma mean_flow_moving seg : (forall v, In v seg -> (fst v = 0 <-> snd v = 0)) ->
  mean_flow seg = (mean_where moving fst seg, mean_where moving snd seg).
Proof.
  intro H. rewrite mean_flow_value. unfold mean_where.
  assert (A : filter (fun v => nonzero (fst v)) seg = filter moving seg).
  { apply filter_ext_in. intros v I. specialize (H v I). unfold moving, nonzero.
    destruct (Req_EM_T (fst v) 0), (Req_EM_T (snd v) 0); cbn; tauto. }
  assert (B : filter (fun v => nonzero (snd v)) seg = filter moving seg).
  { apply filter_ext_in. intros v I. specialize (H v I). unfold moving, nonzero.
    destruct (Req_EM_T (fst v) 0), (Req_EM_T (snd v) 0); cbn; tauto. }
  now rewrite A, B.
Qed.

(** Each component stays within the values it averages. *)
Lemma total_bounds f l m M : (forall v, In v l -> m <= f v <= M) -> m * INR (length l) <= total f l <= M * INR (length l).
Proof.
  induction l as [|x l IH]; intro H; [cbn; lra|].
  cbn [total fold_right length]. fold (total f l). rewrite S_INR.
  pose proof (H x (or_introl eq_refl)). specialize (IH (fun v I => H v (or_intror I))). lra.
Qed.
Lemma mean_where_bounds keep f l m M : (exists v, In v l /\ keep v = true) ->
  (forall v, In v l -> keep v = true -> m <= f v <= M) -> m <= mean_where keep f l <= M.
Proof.
  intros (v & I & K) H. unfold mean_where.
  assert (Y : In v (filter keep l)) by (apply filter_In; auto).
  assert (G : forall u, In u (filter keep l) -> m <= f u <= M) by (intros u U; apply filter_In in U; apply H; tauto).
  destruct (filter keep l) as [|x r] eqn:E; [destruct Y|]. rewrite <- E in *. clear Y.
  pose proof (total_bounds f _ m M G) as B.
  assert (P : 0 < INR (length (filter keep l))) by (rewrite E; apply lt_0_INR; cbn; lia).
  split.
  - apply Rmult_le_reg_r with (INR (length (filter keep l))); [exact P|]. unfold Rdiv. rewrite Rmult_assoc, Rinv_l by lra. lra.
  - apply Rmult_le_reg_r with (INR (length (filter keep l))); [exact P|]. unfold Rdiv. rewrite Rmult_assoc, Rinv_l by lra. lra.
Qed.

(** Two steps, one moving along each axis, give a flow faster than both. *)
Lemma mean_flow_fast : let seg := [(3, 0); (0, 4)] in
  mean_flow seg = (3, 4) /\ Forall (fun v => speed v < speed (mean_flow seg)) seg /\
  mean_flow seg <> (mean_where moving fst seg, mean_where moving snd seg).
Proof.
  intro seg.
  assert (E : mean_flow seg = (3, 4)).
  { unfold seg, mean_flow, divide_no_nan, reduce_sum, not_equal_zero. cbn [map fold_right fst snd].
    destruct (Req_EM_T 3 0); [lra|]. destruct (Req_EM_T 0 0); [|lra]. destruct (Req_EM_T 4 0); [lra|].
    destruct (Req_EM_T (1 + (0 + 0)) 0); [lra|]. destruct (Req_EM_T (0 + (1 + 0)) 0); [lra|]. f_equal; lra. }
  rewrite E. split; [reflexivity|]. split.
  - unfold seg, speed. apply Forall_cons; [|apply Forall_cons; [|apply Forall_nil]]; cbn [fst snd];
      apply sqrt_lt_1; lra.
  - unfold seg, mean_where, moving, nonzero. cbn [filter fst snd].
    destruct (Req_EM_T 3 0); [lra|]. destruct (Req_EM_T 0 0); [|lra]. destruct (Req_EM_T 4 0); [lra|]. cbn [orb].
    intro H. injection H as H _. cbn in H. lra.
Qed.

(** Agent trails. *)
Lemma clip_range x : 0 <= clip01 x <= 1.
Proof.
  unfold clip01. split; [|apply Rmin_r]. apply Rmin_glb; [apply Rmax_r|lra].
Qed.
Lemma clip_id x : 0 <= x <= 1 -> clip01 x = x.
Proof. intro H. unfold clip01. rewrite Rmax_left by lra. apply Rmin_left. lra. Qed.
Lemma clip_one x : 1 <= x -> clip01 x = 1.
Proof. intro H. unfold clip01. rewrite Rmax_left by lra. apply Rmin_right. lra. Qed.

Section Trails.
Variables (gamma : R) (n : nat) (t : classes timestep_grids).
Hypothesis Gamma : 0 <= gamma <= 1.
Hypothesis Length : length (past_occupancy (vehicles t)) = n.
Hypothesis Binary : for_all_classes (fun g => binary (past_occupancy g) /\ binary (current_occupancy g)) t.

Lemma binary_nth l i : binary l -> nth i l 0 = 0 \/ nth i l 0 = 1.
Proof.
  intro B. destruct (le_lt_dec (length l) i) as [H|H]; [left; now apply nth_overflow|].
  unfold binary in B. rewrite Forall_forall in B. apply B, nth_In, H.
Qed.
Lemma sum_occupied get i : for_all_classes (fun g => binary (get g)) t ->
  (occupied_at get t i /\ 1 <= sum_at get t i) \/ (~ occupied_at get t i /\ sum_at get t i = 0).
Proof.
  intros (A & B & C). unfold occupied_at, sum_at.
  destruct (binary_nth _ i A) as [a|a], (binary_nth _ i B) as [b|b], (binary_nth _ i C) as [d|d]; rewrite a, b, d;
    solve [left; split; [tauto|lra] | right; split; [intros [?|[?|?]]; lra|lra]].
Qed.

Definition step (trails : R) (i : nat) : R := clip01 (trails * gamma + sum_at past_occupancy t i).
Lemma trail_at m : let v := fold_left step (seq 0 m) 0 in
  0 <= v <= 1 /\
  (forall i, (i < m)%nat -> occupied_at past_occupancy t i -> (forall j, (i < j < m)%nat -> ~ occupied_at past_occupancy t j) ->
     v = gamma ^ (m - 1 - i)) /\
  ((forall i, (i < m)%nat -> ~ occupied_at past_occupancy t i) -> v = 0).
Proof.
  assert (PB : for_all_classes (fun g => binary (past_occupancy g)) t)
    by (destruct Binary as (A & B & C); repeat split; tauto).
  induction m as [|m IH].
  - cbn. split; [lra|]. split; [intros; lia|reflexivity].
  - rewrite seq_S, fold_left_app. cbn [fold_left Nat.add]. cbn zeta in IH |- *.
    set (v := fold_left step (seq 0 m) 0) in *. destruct IH as (R0 & Last & Never).
    split; [apply clip_range|]. unfold step.
    destruct (sum_occupied past_occupancy m PB) as [(O & S1)|(O & S0)].
    + assert (E : clip01 (v * gamma + sum_at past_occupancy t m) = 1).
      { apply clip_one. assert (0 <= v * gamma) by (apply Rmult_le_pos; lra). lra. }
      rewrite E. split.
      * intros i I Oi Nj. assert (i = m) by (destruct (Nat.eq_dec i m); [auto|exfalso; apply (Nj m); [lia|exact O]]). subst i.
        replace (S m - 1 - m)%nat with 0%nat by lia. reflexivity.
      * intro N. exfalso. apply (N m); [lia|exact O].
    + rewrite S0, Rplus_0_r.
      assert (E : clip01 (v * gamma) = v * gamma).
      { apply clip_id. split; [apply Rmult_le_pos; lra|].
        apply Rle_trans with (1 * 1); [apply Rmult_le_compat; lra|lra]. }
      rewrite E. split.
      * intros i I Oi Nj. assert (i < m)%nat by (destruct (Nat.eq_dec i m); [subst; contradiction|lia]).
        rewrite (Last i) by (auto; intros j J; apply Nj; lia).
        replace (S m - 1 - i)%nat with (S (m - 1 - i)) by lia. cbn [pow]. ring.
      * intro N. rewrite Never by (intros i I; apply N; lia). ring.
Qed.

Lemma trails_value :
  0 <= create_agent_trails gamma t <= 1 /\
  (occupied_at current_occupancy t 0 -> create_agent_trails gamma t = 1) /\
  (~ occupied_at current_occupancy t 0 ->
    (forall i, (i < n)%nat -> occupied_at past_occupancy t i -> (forall j, (i < j < n)%nat -> ~ occupied_at past_occupancy t j) ->
       create_agent_trails gamma t = gamma ^ (n + 1 - i)) /\
    ((forall i, (i < n)%nat -> ~ occupied_at past_occupancy t i) -> create_agent_trails gamma t = 0)).
Proof.
  assert (CB : for_all_classes (fun g => binary (current_occupancy g)) t)
    by (destruct Binary as (A & B & C); repeat split; tauto).
  unfold create_agent_trails. cbn zeta. rewrite Length.
  pose proof (trail_at n) as H. cbn zeta in H. unfold step in H.
  match type of H with 0 <= ?x <= 1 /\ _ => set (v := x) in * end.
  destruct H as (R0 & Last & Never).
  assert (V : 0 <= v * gamma * gamma <= 1).
  { assert (0 <= v * gamma <= 1) by (split; [apply Rmult_le_pos; lra|apply Rle_trans with (1 * 1); [apply Rmult_le_compat; lra|lra]]).
    split; [apply Rmult_le_pos; lra|apply Rle_trans with (1 * 1); [apply Rmult_le_compat; lra|lra]]. }
  split; [apply clip_range|].
  destruct (sum_occupied current_occupancy 0 CB) as [(O & S1)|(O & S0)].
  - split; [|tauto]. intros _. apply clip_one. lra.
  - split; [tauto|]. intros _. rewrite S0, Rplus_0_r, clip_id by exact V. split.
    + intros i I Oi Nj. rewrite (Last i I Oi Nj).
      replace (n + 1 - i)%nat with (S (S (n - 1 - i))) by lia. cbn [pow]. ring.
    + intro N. rewrite (Never N). ring.
Qed.
End Trails.
