(** Proofs about the ground truth of the occupancy flow task. *)
From Coq Require Import Reals List Arith ZArith Lia Lra Bool.
From Verif Require Import Base ResultLib WayModel OccModel OccSpec WaySpec TruthModel TruthSpec MonadLib.
From Verif Require OccWitness OccRender OccFlow OccCover WayLookup WayProofs WayFlow.
Import ListNotations.
Open Scope R_scope.

Local Notation P c := (num_past_steps (task c)).
Local Notation F c := (num_future_steps (task c)).
Local Notation W c := (num_waypoints (task c)).

Lemma states_all a : states [Past; Current; Future] a = timeline a.
Proof. unfold states, timeline. cbn [map concat]. now rewrite app_nil_r. Qed.
Lemma states_one t a : states [t] a = match t with Past => past a | Current => current a | Future => future a end.
Proof. unfold states. cbn [map concat]. now rewrite app_nil_r. Qed.
Lemma complete_one c sc t : complete c [t] sc <->
  forall a, In a (agents sc) -> length (match t with Past => past a | Current => current a | Future => future a end) = match t with Past => P c | Current => 1%nat | Future => F c end.
Proof.
  unfold complete. split; intros H a I; specialize (H a I); revert H; rewrite states_one; unfold num_steps; destruct t; cbn [existsb is_time orb Nat.add]; lia.
Qed.
Lemma well_timed_iff c sc : well_timed c sc <-> complete c [Past] sc /\ complete c [Current] sc /\ complete c [Future] sc.
Proof.
  rewrite !complete_one. unfold well_timed. split.
  - intro H. repeat split; intros a I; apply (H a I).
  - intros (A & B & C) a I. exact (conj (A a I) (conj (B a I) (C a I))).
Qed.
Lemma complete_all c sc : well_timed c sc -> complete c [Past; Current; Future] sc.
Proof.
  intros T a I. destruct (T a I) as (A & B & C). rewrite states_all. unfold timeline, num_steps. cbn [existsb is_time orb].
  rewrite !app_length. lia.
Qed.

(** The requested occupancies in terms of the timeline. *)
Section Present.
Variables (c : render_config) (sc : scene).
Hypothesis Timed : well_timed c sc.

Lemma at_past a i : In a (agents sc) -> (i < P c)%nat -> nth_error (timeline a) i = nth_error (past a) i.
Proof. intros I L. destruct (Timed a I) as (A & _). unfold timeline. apply nth_error_app1. lia. Qed.
Lemma at_now a : In a (agents sc) -> nth_error (timeline a) (P c) = nth_error (current a) 0%nat.
Proof.
  intros I. destruct (Timed a I) as (A & B & _). unfold timeline. rewrite nth_error_app2 by lia. rewrite A, Nat.sub_diag.
  apply nth_error_app1. lia.
Qed.
Lemma at_future a i : In a (agents sc) -> nth_error (timeline a) (P c + 1 + i) = nth_error (future a) i.
Proof.
  intros I. destruct (Timed a I) as (A & B & _). unfold timeline. rewrite nth_error_app2 by lia. rewrite nth_error_app2 by lia.
  f_equal. lia.
Qed.
Lemma wanted_both ts a : wanted ts true true a.
Proof. intros _. auto. Qed.
Lemma wanted_obs a : wanted [Future] true false a <-> observed a.
Proof.
  unfold wanted. split.
  - intro H. destruct (H (or_introl eq_refl)) as (_ & B). destruct (OccRender.observedb a) eqn:O; [now apply OccRender.observedb_iff|].
    assert (N : ~ observed a) by (intro X; apply OccRender.observedb_iff in X; congruence). specialize (B N). discriminate.
  - intros O _. split; [auto|intro N; contradiction].
Qed.
Lemma wanted_occ a : wanted [Future] false true a <-> hidden a.
Proof.
  unfold wanted, hidden. split.
  - intros H O. destruct (H (or_introl eq_refl)) as (A & _). specialize (A O). discriminate.
  - intros O _. split; [intro X; contradiction|auto].
Qed.
Lemma occ_all class r q t : occupies c sc [Past; Current; Future] true true class r q t <-> present c sc anyone class r q t.
Proof.
  unfold occupies, present. split; intros (a & s & I & T & _ & H); exists a, s; rewrite states_all in *; unfold anyone; pose proof (wanted_both [Past; Current; Future] a); tauto.
Qed.
Lemma occ_past class r q t : (t < P c)%nat -> occupies c sc [Past] true true class r q t <-> present c sc anyone class r q t.
Proof.
  intro L. unfold occupies, present. split; intros (a & s & I & T & _ & H); exists a, s; rewrite states_one, at_past in * by assumption; unfold anyone; pose proof (wanted_both [Past] a); tauto.
Qed.
Lemma occ_now class r q : occupies c sc [Current] true true class r q 0%nat <-> present c sc anyone class r q (P c).
Proof.
  unfold occupies, present. split; intros (a & s & I & T & _ & H); exists a, s; rewrite states_one, at_now in * by assumption; unfold anyone; pose proof (wanted_both [Current] a); tauto.
Qed.
Lemma occ_obs class r q t : occupies c sc [Future] true false class r q t <-> present c sc observed class r q (P c + 1 + t).
Proof.
  unfold occupies, present. split; intros (a & s & I & T & Wa & H); exists a, s; rewrite states_one, at_future in * by assumption; pose proof (wanted_obs a); tauto.
Qed.
Lemma occ_occ class r q t : occupies c sc [Future] false true class r q t <-> present c sc hidden class r q (P c + 1 + t).
Proof.
  unfold occupies, present. split; intros (a & s & I & T & Wa & H); exists a, s; rewrite states_one, at_future in * by assumption; pose proof (wanted_occ a); tauto.
Qed.
Lemma contributes_moves size class r q t k d :
  contributes c sc [Past; Current; Future] true true size class r q t k d <-> moves_into c sc size class r q t k d.
Proof.
  unfold contributes, moves_into. split.
  - intros (A & B & a & x & y & I & T & _ & H). rewrite !states_all in H. split; [exact A|]. split; [exact B|]. exists a, x, y. tauto.
  - intros (A & B & a & x & y & I & T & H). split; [exact A|]. split; [exact B|]. exists a, x, y. rewrite !states_all.
    pose proof (wanted_both [Past; Current; Future] a). tauto.
Qed.
End Present.

Lemma says_iff v A B : says v A -> (A <-> B) -> says v B.
Proof. unfold says. tauto. Qed.
Lemma view_in {A} (g : classes A) z x : view g z = Ok x -> (z = 1 /\ x = vehicles g \/ z = 2 /\ x = pedestrians g \/ z = 3 /\ x = cyclists g)%Z.
Proof.
  unfold view. destruct (Z.eqb_spec z 1), (Z.eqb_spec z 2), (Z.eqb_spec z 3); intro H; try discriminate H; injection H as <-; tauto.
Qed.

Lemma div_size c : (0 < W c <= F c)%nat -> (0 < F c / W c <= num_steps c [Past; Current; Future])%nat.
Proof.
  intro H. unfold num_steps. cbn [existsb is_time orb]. pose proof (Nat.div_str_pos (F c) (W c) H).
  pose proof (Nat.div_le_upper_bound (F c) (W c) (F c) ltac:(lia)). nia.
Qed.

Theorem steps_value c sc : sampled c -> well_timed c sc -> (0 < W c <= F c)%nat ->
  exists t, create_ground_truth_timestep_grids c sc = Ok t /\ forall class g, view t class = Ok g -> steps_right c sc (F c / W c) class g.
Proof.
  intros Sa T H. pose proof (proj1 (well_timed_iff c sc) T) as (CP & CC & CF). pose proof (complete_all c sc T) as CA.
  destruct (OccRender.occupancy_value c sc [Current] true true Sa CC ltac:(auto)) as (g1 & E1 & V1).
  destruct (OccRender.occupancy_value c sc [Past] true true Sa CP ltac:(auto)) as (g2 & E2 & V2).
  destruct (OccRender.occupancy_value c sc [Future] true false Sa CF ltac:(auto)) as (g3 & E3 & V3).
  destruct (OccRender.occupancy_value c sc [Future] false true Sa CF ltac:(auto)) as (g4 & E4 & V4).
  destruct (OccRender.occupancy_value c sc [Past; Current; Future] true true Sa CA ltac:(auto)) as (g5 & E5 & V5).
  destruct (OccFlow.flow_value c sc [Past; Current; Future] true true _ Sa CA ltac:(auto) ltac:(lia) eq_refl (div_size c H)) as (g6 & E6 & V6).
  unfold create_ground_truth_timestep_grids. rewrite E1, E2, E3, E4, E5, E6. cbn [bind]. eexists. split; [reflexivity|].
  assert (Go : forall class h1 h2 h3 h4 h5 h6, view g1 class = Ok h1 -> view g2 class = Ok h2 -> view g3 class = Ok h3 -> view g4 class = Ok h4 ->
    view g5 class = Ok h5 -> view g6 class = Ok h6 ->
    steps_right c sc (F c / W c) class {| current_grid := h1; past_grid := h2; future_observed_grid := h3; future_occluded_grid := h4; all_grid := h5; flow_grid_all := h6 |}).
  { intros class h1 h2 h3 h4 h5 h6 W1 W2 W3 W4 W5 W6 r q G. cbn [current_grid past_grid future_observed_grid future_occluded_grid all_grid flow_grid_all].
    split; [exact (says_iff _ _ _ (V1 class h1 W1 r q 0%nat G) (occ_now c sc T class r q))|].
    split; [intros i L; exact (says_iff _ _ _ (V2 class h2 W2 r q i G) (occ_past c sc T class r q i L))|].
    split; [intros i; exact (says_iff _ _ _ (V3 class h3 W3 r q i G) (occ_obs c sc T class r q i))|].
    split; [intros i; exact (says_iff _ _ _ (V4 class h4 W4 r q i G) (occ_occ c sc T class r q i))|].
    split; [intros i; exact (says_iff _ _ _ (V5 class h5 W5 r q i G) (occ_all c sc class r q i))|].
    intro i. destruct (V6 class h6 W6 r q i G) as (l & N & L & E). exists l. split; [exact N|]. split; [|exact E].
    intros k d. rewrite L. apply contributes_moves. }
  intros class g V. apply view_in in V. cbn [vehicles pedestrians cyclists] in V.
  destruct V as [(-> & ->)|[(-> & ->)|(-> & ->)]]; apply Go; reflexivity.
Qed.

Lemma steps_refused c sc : ~ (sampled c /\ well_timed c sc) -> create_ground_truth_timestep_grids c sc = Err ValueError.
Proof.
  intro N. unfold create_ground_truth_timestep_grids.
  destruct (Nat.ltb 0 (points_per_side_length c) && Nat.ltb 0 (points_per_side_width c)) eqn:Sb.
  - apply andb_true_iff in Sb. destruct Sb as (S1 & S2). apply Nat.ltb_lt in S1, S2. assert (Sa : sampled c) by (split; assumption).
    assert (Dec : forall ts, complete c ts sc \/ ~ complete c ts sc).
    { intro ts. destruct (forallb (fun a => Nat.eqb (length (states ts a)) (num_steps c ts)) (agents sc)) eqn:Fb.
      - left. intros a I. rewrite forallb_forall in Fb. apply Nat.eqb_eq, Fb, I.
      - right. intro X. assert (Y : forallb (fun a => Nat.eqb (length (states ts a)) (num_steps c ts)) (agents sc) = true)
          by (apply forallb_forall; intros a I; apply Nat.eqb_eq, X, I). congruence. }
    destruct (Dec [Current]) as [CC|CC]; [|now rewrite (proj1 (OccRender.occupancy_refused c sc [Current] true true ltac:(tauto)))].
    destruct (OccRender.occupancy_value c sc [Current] true true Sa CC ltac:(auto)) as (g1 & E1 & V1). rewrite E1. cbn [bind].
    destruct (Dec [Past]) as [CP|CP]; [|now rewrite (proj1 (OccRender.occupancy_refused c sc [Past] true true ltac:(tauto)))].
    destruct (OccRender.occupancy_value c sc [Past] true true Sa CP ltac:(auto)) as (g2 & E2 & V2). rewrite E2. cbn [bind].
    destruct (Dec [Future]) as [CF|CF]; [|now rewrite (proj1 (OccRender.occupancy_refused c sc [Future] true false ltac:(tauto)))].
    exfalso. apply N. split; [exact Sa|]. apply well_timed_iff. tauto.
  - rewrite (proj1 (OccRender.occupancy_refused c sc [Current] true true ltac:(intros (Sx & _); destruct Sx as (S1 & S2); apply Nat.ltb_lt in S1, S2; rewrite S1, S2 in Sb; discriminate))).
    reflexivity.
Qed.

(** The series at a cell. *)
Lemma series_length {A} (g : Z -> Z -> nat -> A) r q n : length (series g r q n) = n.
Proof. unfold series. now rewrite map_length, seq_length. Qed.
Lemma series_nth {A} (g : Z -> Z -> nat -> A) r q n i d : (i < n)%nat -> nth i (series g r q n) d = g r q i.
Proof.
  intro L. unfold series. rewrite (nth_indep _ d (g r q 0%nat)) by (rewrite map_length, seq_length; exact L).
  rewrite map_nth, seq_nth by exact L. reflexivity.
Qed.
Lemma cell_shaped c size r q g : can_split (task c) size -> well_shaped (task c) size (at_cell c r q g).
Proof.
  intros (A & B & C). unfold well_shaped, at_cell. cbn [past_occupancy current_occupancy future_observed_occupancy future_occluded_occupancy all_occupancy all_flow].
  rewrite !series_length. unfold num_steps. cbn [existsb is_time orb].
  rewrite B, Nat.mul_comm, Nat.div_mul by lia. repeat split; lia.
Qed.
Lemma cells_shaped c size r q t : can_split (task c) size -> for_all_classes (well_shaped (task c) size) (cells c r q t).
Proof. intro S0. unfold for_all_classes, cells. cbn [vehicles pedestrians cyclists]. split; [|split]; now apply cell_shaped. Qed.
Lemma split_div c size : can_split (task c) size -> (0 < F c)%nat -> (F c / W c = size /\ 0 < W c <= F c /\ 0 < size <= P c + 1)%nat.
Proof. intros (A & B & C) L. assert (0 < size)%nat by nia. assert (F c / W c = size)%nat by (rewrite B, Nat.mul_comm; apply Nat.div_mul; lia). repeat split; try assumption; try lia; nia. Qed.

(** A waypoint over a series that says where agents are. *)
Lemma covers_window c size k s : (0 < size)%nat -> (s < size)%nat -> 
  (if cumulative_waypoints (task c) then True else s = size - 1)%nat -> covers c size k (P c + 1 + (k * size + s)).
Proof. intros A B C. unfold covers. destruct (cumulative_waypoints (task c)); lia. Qed.
Lemma covers_inv c size k t : (0 < size)%nat -> covers c size k t ->
  exists s, (s < size)%nat /\ t = (P c + 1 + (k * size + s))%nat /\ (if cumulative_waypoints (task c) then True else s = size - 1)%nat.
Proof.
  intros A. unfold covers. destruct (cumulative_waypoints (task c)); intro H.
  - exists (t - (P c + 1 + k * size))%nat. repeat split; lia.
  - exists (size - 1)%nat. repeat split; lia.
Qed.
Lemma waypoint_says c size from k l shown (A : nat -> Prop) : (0 < size)%nat ->
  (forall s, (s < size)%nat -> says (nth (from + k * size + s) l 0) (A s)) ->
  shows_waypoint (task c) size from k l shown ->
  exists v, shown = Some v /\ says v (exists s, (s < size)%nat /\ (if cumulative_waypoints (task c) then True else s = size - 1)%nat /\ A s).
Proof.
  intros Pos H Sh. unfold shows_waypoint in Sh. destruct (cumulative_waypoints (task c)).
  - destruct Sh as (v & -> & I & M). exists v. split; [reflexivity|]. apply WayFlow.in_window in I. destruct I as (i & L & E).
    destruct (H i L) as [(V & B)|(V & B)].
    + left. split; [congruence|]. exists i. tauto.
    + right. split; [congruence|]. intros (s & Ls & _ & As). destruct (H s Ls) as [(V' & _)|(_ & B')]; [|tauto].
      specialize (M 1). assert (1 <= v); [|lra]. apply M, WayFlow.in_window. exists s. split; [exact Ls|now rewrite V'].
  - exists (nth (from + k * size + (size - 1)) l 0). split; [exact Sh|]. apply (says_iff _ _ _ (H (size - 1)%nat ltac:(lia))).
    split; [intro X; exists (size - 1)%nat; repeat split; try lia; exact X|]. intros (s & _ & -> & X). exact X.
Qed.

Lemma by_view {A B} (R : A -> B -> Prop) g h class : for_each_class R g h -> forall x y, view g class = Ok x -> view h class = Ok y -> R x y.
Proof.
  intros (X & Y & Z) x y Vx Vy. apply view_in in Vx. apply view_in in Vy.
  destruct Vx as [(-> & ->)|[(-> & ->)|(-> & ->)]], Vy as [(E & ->)|[(E & ->)|(E & ->)]]; try lia; assumption.
Qed.
Lemma view_cells c r q t class g : view t class = Ok g -> view (cells c r q t) class = Ok (at_cell c r q g).
Proof. intro V. apply view_in in V. destruct V as [(-> & ->)|[(-> & ->)|(-> & ->)]]; reflexivity. Qed.
Lemma view_some {A} {B} (g : classes A) (h : classes B) class x : view g class = Ok x -> exists y, view h class = Ok y.
Proof. intro V. apply view_in in V. destruct V as [(-> & _)|[(-> & _)|(-> & _)]]; eexists; reflexivity. Qed.

Lemma made_inv c sc r q w : ground_truth c sc r q = Ok w ->
  exists t, create_ground_truth_timestep_grids c sc = Ok t /\ create_ground_truth_waypoint_grids (task c) (cells c r q t) = Ok w.
Proof. unfold ground_truth. intro H. destruct (create_ground_truth_timestep_grids c sc) as [t|e]; [|discriminate]. exists t. split; [reflexivity|exact H]. Qed.

Lemma conditions c sc r q w : (0 < F c)%nat -> ground_truth c sc r q = Ok w -> sampled c /\ well_timed c sc /\ exists size, can_split (task c) size.
Proof.
  intros L H. destruct (made_inv _ _ _ _ _ H) as (t & E & M).
  assert (A : sampled c /\ well_timed c sc).
  { assert (Dec : (sampled c /\ well_timed c sc) \/ ~ (sampled c /\ well_timed c sc)).
    { destruct (Nat.ltb 0 (points_per_side_length c) && Nat.ltb 0 (points_per_side_width c) &&
        forallb (fun a => Nat.eqb (length (past a)) (P c) && Nat.eqb (length (current a)) 1 && Nat.eqb (length (future a)) (F c)) (agents sc)) eqn:B.
      - left. apply andb_true_iff in B. destruct B as (B1 & B2). apply andb_true_iff in B1. destruct B1 as (S1 & S2). apply Nat.ltb_lt in S1, S2.
        split; [split; assumption|]. intros a I. rewrite forallb_forall in B2. specialize (B2 a I). rewrite !andb_true_iff, !Nat.eqb_eq in B2. tauto.
      - right. intros ((S1 & S2) & T). apply Nat.ltb_lt in S1, S2. rewrite S1, S2 in B. cbn [andb] in B.
        assert (Y : forallb (fun a => Nat.eqb (length (past a)) (P c) && Nat.eqb (length (current a)) 1 && Nat.eqb (length (future a)) (F c)) (agents sc) = true);
          [|congruence]. apply forallb_forall. intros a I. rewrite !andb_true_iff, !Nat.eqb_eq. specialize (T a I). tauto. }
    destruct Dec as [D|D]; [exact D|]. rewrite (steps_refused c sc D) in E. discriminate. }
  split; [apply A|]. split; [apply A|].
  apply (WayLookup.accepts_iff (task c) (cells c r q t) L); [|eauto]. intros size. apply cells_shaped.
Qed.

Theorem outcome c sc r q : (0 < F c)%nat ->
  ((exists w, ground_truth c sc r q = Ok w) <-> sampled c /\ well_timed c sc /\ exists size, can_split (task c) size) /\
  (~ (sampled c /\ well_timed c sc) -> ground_truth c sc r q = Err ValueError).
Proof.
  intro L. split.
  - split; [intros (w & H); exact (conditions _ _ _ _ _ L H)|]. intros (Sa & T & size & Sp). destruct (split_div c size Sp L) as (_ & Wp & _).
    destruct (steps_value c sc Sa T Wp) as (t & E & _). unfold ground_truth. rewrite E. cbn [bind].
    apply (WayLookup.accepts_iff (task c) (cells c r q t) L); [|eauto]. intros s. apply cells_shaped.
  - intro N. unfold ground_truth. now rewrite (steps_refused c sc N).
Qed.

Theorem occupancy_truth c sc size r q w : (0 < F c)%nat -> can_split (task c) size -> in_grid c r q -> ground_truth c sc r q = Ok w ->
  forall class g, view w class = Ok g ->
  length (observed_occupancy g) = W c /\ length (occluded_occupancy g) = W c /\ length (flow_origin_occupancy g) = W c /\ length (flow g) = W c /\
  occupancies_right c sc size class r q g.
Proof.
  intros L Sp G H class g V. destruct (conditions _ _ _ _ _ L H) as (Sa & T & _). destruct (split_div c size Sp L) as (Ed & Wp & Sz).
  destruct (made_inv _ _ _ _ _ H) as (t & E & M). destruct (steps_value c sc Sa T Wp) as (t' & E' & St). rewrite E in E'. injection E' as <-.
  destruct (view_some w t class g V) as (h & Vt). specialize (St class h Vt r q G). destruct St as (_ & _ & So & Sh & Sal & _).
  pose proof (by_view _ _ _ class (WayFlow.occupancy_shown (task c) size (cells c r q t) w Sp L (cells_shaped c size r q t Sp) M) _ _ (view_cells c r q t class h Vt) V) as (Len & Sw).
  split; [apply Len|]. split; [apply Len|]. split; [apply Len|]. split; [apply Len|].
  intros k K. destruct (Sw k K) as (o & u & f & E1 & S1 & E2 & S2 & E3 & S3).
  cbn [at_cell future_observed_occupancy future_occluded_occupancy all_occupancy] in S1, S2, S3.
  pose proof (WayProofs.end_le (W c) size k K) as En. assert (Ef : F c = (W c * size)%nat) by apply Sp. rewrite <- Ef in En.
  assert (NF : num_steps c [Future] = F c) by (unfold num_steps; cbn [existsb is_time orb]; lia).
  assert (NA : num_steps c [Past; Current; Future] = (P c + 1 + F c)%nat) by (unfold num_steps; cbn [existsb is_time orb]; lia).
  destruct (waypoint_says c size 0%nat k (series (future_observed_grid h) r q (num_steps c [Future])) o (fun s => present c sc observed class r q (P c + 1 + (k * size + s))) ltac:(lia)
    ltac:(intros s Ls; rewrite series_nth by lia; apply So) S1) as (vo & -> & Vo).
  destruct (waypoint_says c size 0%nat k (series (future_occluded_grid h) r q (num_steps c [Future])) u (fun s => present c sc hidden class r q (P c + 1 + (k * size + s))) ltac:(lia)
    ltac:(intros s Ls; rewrite series_nth by lia; apply Sh) S2) as (vu & -> & Vu).
  destruct (waypoint_says c size (P c + 1 - size) k (series (all_grid h) r q (num_steps c [Past; Current; Future])) f (fun s => present c sc anyone class r q (P c + 1 - size + k * size + s)) ltac:(lia)
    ltac:(intros s Ls; rewrite series_nth by lia; apply Sal) S3) as (vf & -> & Vf).
  exists vo, vu, vf. split; [exact E1|]. split; [|split; [exact E2|split; [|split; [exact E3|]]]].
  - apply (says_iff _ _ _ Vo). split.
    + intros (s & Ls & C & X). eexists. split; [apply (covers_window c size k s ltac:(lia) Ls C)|exact X].
    + intros (t0 & C & X). destruct (covers_inv c size k t0 ltac:(lia) C) as (s & Ls & -> & C'). exists s. tauto.
  - apply (says_iff _ _ _ Vu). split.
    + intros (s & Ls & C & X). eexists. split; [apply (covers_window c size k s ltac:(lia) Ls C)|exact X].
    + intros (t0 & C & X). destruct (covers_inv c size k t0 ltac:(lia) C) as (s & Ls & -> & C'). exists s. tauto.
  - apply (says_iff _ _ _ Vf). split.
    + intros (s & Ls & C & X). eexists. split; [|exact X].
      replace (P c + 1 - size + k * size + s + size)%nat with (P c + 1 + (k * size + s))%nat by lia. apply (covers_window c size k s ltac:(lia) Ls C).
    + intros (t0 & C & X). destruct (covers_inv c size k _ ltac:(lia) C) as (s & Ls & Et & C'). exists s. split; [exact Ls|]. split; [exact C'|].
      replace (P c + 1 - size + k * size + s)%nat with t0 by lia. exact X.
Qed.

Theorem flow_truth c sc size r q w : (0 < F c)%nat -> can_split (task c) size -> in_grid c r q -> ground_truth c sc r q = Ok w ->
  forall class g, view w class = Ok g -> forall k, (k < W c)%nat ->
  if cumulative_waypoints (task c) then
    exists steps, length steps = size /\
      (forall i v, nth_error steps i = Some v -> flow_since c sc size class r q (P c + 1 + k * size + i - size) v) /\
      nth_error (flow g) k = Some (mean_where (fun v => nonzero (fst v)) fst steps, mean_where (fun v => nonzero (snd v)) snd steps)
  else exists v, nth_error (flow g) k = Some v /\ flow_since c sc size class r q (P c + k * size) v.
Proof.
  intros L Sp G H class g V k K. destruct (conditions _ _ _ _ _ L H) as (Sa & T & _). destruct (split_div c size Sp L) as (Ed & Wp & Sz).
  destruct (made_inv _ _ _ _ _ H) as (t & E & M). destruct (steps_value c sc Sa T Wp) as (t' & E' & St). rewrite E in E'. injection E' as <-.
  destruct (view_some w t class g V) as (h & Vt). specialize (St class h Vt r q G). destruct St as (_ & _ & _ & _ & _ & Sf). rewrite Ed in Sf.
  pose proof (by_view _ _ _ class (WayLookup.flow_value (task c) size (cells c r q t) w Sp L (cells_shaped c size r q t Sp) M) _ _ (view_cells c r q t class h Vt) V k K) as Fl.
  pose proof (WayProofs.end_le (W c) size k K) as En. assert (Ef : F c = (W c * size)%nat) by apply Sp. rewrite <- Ef in En.
  assert (NA : num_steps c [Past; Current; Future] = (P c + 1 + F c)%nat) by (unfold num_steps; cbn [existsb is_time orb]; lia).
  cbn [at_cell all_flow] in Fl. rewrite Ed, NA in Fl. destruct (cumulative_waypoints (task c)).
  - cbn zeta in Fl. eexists. split; [|split; [|exact Fl]].
    + apply WayProofs.window_length.
    + intros i v Hv. assert (Li : (i < size)%nat) by (rewrite <- (WayProofs.window_length (0, 0) (series (flow_grid_all h) r q (P c + 1 + F c - size)) (P c + 1 - size + k * size) size); apply nth_error_Some; congruence).
      apply (nth_error_nth _ _ (0, 0)) in Hv. rewrite WayProofs.nth_window in Hv by exact Li. rewrite series_nth in Hv by lia. subst v.
      replace (P c + 1 + k * size + i - size)%nat with (P c + 1 - size + k * size + i)%nat by lia. apply Sf.
  - eexists. split; [exact Fl|]. rewrite series_nth by lia. apply Sf.
Qed.

(** The origins of a waypoint are the occupancies of the one before. *)
Lemma observed_or_hidden a : observed a \/ hidden a.
Proof. destruct (OccRender.observedb a) eqn:O; [left; now apply OccRender.observedb_iff|right; intro X; apply OccRender.observedb_iff in X; congruence]. Qed.
Lemma present_split c sc class r q t : present c sc anyone class r q t <-> present c sc observed class r q t \/ present c sc hidden class r q t.
Proof.
  unfold present. split.
  - intros (a & s & I & T & _ & X). destruct (observed_or_hidden a); [left|right]; exists a, s; tauto.
  - intros [(a & s & I & T & _ & X)|(a & s & I & T & _ & X)]; exists a, s; unfold anyone; tauto.
Qed.
Theorem chain c sc size r q w : (0 < F c)%nat -> can_split (task c) size -> in_grid c r q -> ground_truth c sc r q = Ok w ->
  forall class g, view w class = Ok g -> forall k a b, (k + 1 < W c)%nat ->
  nth_error (observed_occupancy g) k = Some (Some a) -> nth_error (occluded_occupancy g) k = Some (Some b) ->
  nth_error (flow_origin_occupancy g) (k + 1) = Some (Some (Rmax a b)).
Proof.
  intros L Sp G H class g V k a b K Ea Eb. destruct (occupancy_truth c sc size r q w L Sp G H class g V) as (_ & _ & _ & _ & O).
  destruct (O k ltac:(lia)) as (a' & b' & _ & Ea' & Sa & Eb' & Sb & _). destruct (O (k + 1)%nat K) as (_ & _ & o & _ & _ & _ & _ & Eo & So).
  rewrite Ea in Ea'. injection Ea' as <-. rewrite Eb in Eb'. injection Eb' as <-. rewrite Eo. do 2 f_equal.
  assert (X : (exists t, covers c size (k + 1) (t + size) /\ present c sc anyone class r q t) <->
    (exists t, covers c size k t /\ present c sc observed class r q t) \/ (exists t, covers c size k t /\ present c sc hidden class r q t)).
  { assert (Y : forall t, covers c size (k + 1) (t + size) <-> covers c size k t) by (intro t; unfold covers; destruct (cumulative_waypoints (task c)); lia).
    split.
    - intros (t & C & Z). apply Y in C. apply present_split in Z. destruct Z; [left|right]; eauto.
    - intros [(t & C & Z)|(t & C & Z)]; exists t; (split; [now apply Y|]); apply present_split; tauto. }
  destruct So as [(-> & So)|(-> & So)], Sa as [(-> & Sa)|(-> & Sa)], Sb as [(-> & Sb)|(-> & Sb)]; try tauto; unfold Rmax; destruct (Rle_dec _ _); lra.
Qed.

(** The visualization grids. *)
Theorem vis_truth c sc points r q : sampled c -> well_timed c sc -> (0 < W c <= F c)%nat -> in_grid c r q ->
  exists road trails, vis_grids c sc points r q = Ok (road, trails) /\
    says road (exists p, In (p, true) points /\ falls_in c sc p r q) /\
    0 <= trails <= 1 /\
    (present_any c sc r q (P c) -> trails = 1) /\
    (~ present_any c sc r q (P c) ->
      (forall i, (i < P c)%nat -> present_any c sc r q i -> (forall j, (i < j < P c)%nat -> ~ present_any c sc r q j) -> trails = (4 / 5) ^ (P c + 1 - i)) /\
      ((forall i, (i < P c)%nat -> ~ present_any c sc r q i) -> trails = 0)).
Proof.
  intros Sa T Wp G. destruct (steps_value c sc Sa T Wp) as (t & E & St). destruct (OccCover.roadgraph c sc points) as (g & Eg & Hg).
  unfold vis_grids. rewrite E. cbn [bind]. rewrite Eg. cbn [bind]. do 2 eexists. split; [reflexivity|].
  split; [specialize (Hg r q G); unfold says; destruct Hg as [(A & B)|(A & B)]; [left; split; assumption|right; split; [exact A|]; intros (p & I & X); exact (B p I X)]|].
  assert (NP : num_steps c [Past] = P c) by (unfold num_steps; cbn [existsb is_time orb]; lia).
  assert (NC : num_steps c [Current] = 1%nat) by (unfold num_steps; cbn [existsb is_time orb]; lia).
  pose proof (St 1%Z _ eq_refl r q G) as (V1 & V2 & _). pose proof (St 2%Z _ eq_refl r q G) as (Q1 & Q2 & _). pose proof (St 3%Z _ eq_refl r q G) as (Y1 & Y2 & _).
  assert (Bin : for_all_classes (fun g => binary (past_occupancy g) /\ binary (current_occupancy g)) (cells c r q t)).
  { unfold for_all_classes, cells, at_cell. cbn [vehicles pedestrians cyclists past_occupancy current_occupancy]. rewrite NP, NC.
    unfold binary, series. rewrite !Forall_forall. unfold says in *. cbn [seq map].
    repeat split; intros x I; try (apply in_map_iff in I; destruct I as (i & <- & I); apply in_seq in I); try (destruct I as [<-|[]]);
      try (specialize (V2 i ltac:(lia)); tauto); try (specialize (Q2 i ltac:(lia)); tauto); try (specialize (Y2 i ltac:(lia)); tauto); tauto. }
  assert (Now : occupied_at current_occupancy (cells c r q t) 0%nat <-> present_any c sc r q (P c)).
  { unfold occupied_at, cells, at_cell. cbn [vehicles pedestrians cyclists current_occupancy]. rewrite NC, !series_nth by lia.
    unfold present_any. split.
    - intros [X|[X|X]]; [exists 1%Z|exists 2%Z|exists 3%Z]; (split; [tauto|]); [destruct V1 as [(_ & ?)|(A & _)]|destruct Q1 as [(_ & ?)|(A & _)]|destruct Y1 as [(_ & ?)|(A & _)]]; try assumption; lra.
    - intros (z & [E0|[E0|E0]] & X); subst z; unfold says in *; tauto. }
  assert (Then : forall i, (i < P c)%nat -> occupied_at past_occupancy (cells c r q t) i <-> present_any c sc r q i).
  { intros i Li. specialize (V2 i Li). specialize (Q2 i Li). specialize (Y2 i Li).
    unfold occupied_at, cells, at_cell. cbn [vehicles pedestrians cyclists past_occupancy]. rewrite NP, !series_nth by lia.
    unfold present_any. split.
    - intros [X|[X|X]]; [exists 1%Z|exists 2%Z|exists 3%Z]; (split; [tauto|]); [destruct V2 as [(_ & ?)|(A & _)]|destruct Q2 as [(_ & ?)|(A & _)]|destruct Y2 as [(_ & ?)|(A & _)]]; try assumption; lra.
    - intros (z & [E0|[E0|E0]] & X); subst z; unfold says in *; tauto. }
  assert (Len : length (past_occupancy (vehicles (cells c r q t))) = P c)
    by (unfold cells, at_cell; cbn [vehicles past_occupancy]; rewrite series_length; exact NP).
  destruct (WayFlow.trails_value (4 / 5) (P c) (cells c r q t) ltac:(lra) Len Bin) as (R0 & R1 & R2).
  split; [exact R0|]. split; [intro X; apply R1; now apply Now|]. intro X. destruct (R2 ltac:(rewrite Now; exact X)) as (R3 & R4). split.
  - intros i Li Pi Nj. apply R3; [exact Li|now apply Then|]. intros j Lj Oj. apply Then in Oj; [|lia]. exact (Nj j Lj Oj).
  - intro N. apply R4. intros i Li Oi. apply Then in Oi; [|exact Li]. exact (N i Li Oi).
Qed.

(** A case: an agent that moves into a cell in the last step. *)
Lemma mover_truth : let c := OccCover.small_config in let sc := OccWitness.mover_scene in
  sampled c /\ well_timed c sc /\ (0 < F c)%nat /\ can_split (task c) 1 /\ in_grid c 1 2 /\
  exists w, ground_truth c sc 1 2 = Ok w /\ observed_occupancy (vehicles w) = [Some 1] /\ occluded_occupancy (vehicles w) = [Some 0] /\
    observed_occupancy (pedestrians w) = [Some 0].
Proof.
  cbn zeta. set (c := OccCover.small_config). set (sc := OccWitness.mover_scene).
  assert (Sa : sampled c) by (split; cbn; lia). assert (T : well_timed c sc) by (intros a [<-|[]]; repeat split).
  assert (L : (0 < F c)%nat) by (cbn; lia). assert (Sp : can_split (task c) 1) by (repeat split; cbn; lia).
  assert (G : in_grid c 1 2) by (unfold in_grid; cbn; lia).
  do 5 (split; [assumption|]). destruct (proj2 (proj1 (outcome c sc 1 2 L)) (conj Sa (conj T (ex_intro _ 1%nat Sp)))) as (w & E).
  exists w. split; [exact E|].
  assert (One : forall (l : list (option R)) x, length l = 1%nat -> nth_error l 0 = Some x -> l = [x]).
  { intros [|y [|z l]] x Ll Ex; try discriminate Ll. injection Ex as ->. reflexivity. }
  assert (Obs : observed OccWitness.mover) by (exists (OccCover.dot_state 0 true); split; [now left|reflexivity]).
  destruct (occupancy_truth c sc 1 1 2 w L Sp G E 1%Z _ eq_refl) as (L1 & L2 & _ & _ & O). destruct (O 0%nat ltac:(cbn; lia)) as (a & b & _ & Ea & Va & Eb & Vb & _).
  destruct (occupancy_truth c sc 1 1 2 w L Sp G E 2%Z _ eq_refl) as (L3 & _ & _ & _ & O'). destruct (O' 0%nat ltac:(cbn; lia)) as (d & _ & _ & Ed & Vd & _).
  rewrite (One _ _ L1 Ea), (One _ _ L2 Eb), (One _ _ L3 Ed).
  split; [|split]; do 2 f_equal.
  - destruct Va as [(V & _)|(_ & N)]; [exact V|]. exfalso. apply N. exists 2%nat. split; [reflexivity|].
    exists OccWitness.mover, (OccCover.dot_state 1 true). split; [now left|]. split; [reflexivity|]. split; [exact Obs|]. split; [reflexivity|]. split; [reflexivity|].
    exists 0%nat, 0%nat. split; [cbn; lia|]. split; [cbn; lia|]. exact (OccWitness.dot_falls 1 true 1 eq_refl).
  - destruct Vb as [(_ & X)|(V & _)]; [|exact V]. destruct X as (t & _ & m & s & [<-|[]] & _ & H & _). exfalso. exact (H Obs).
  - destruct Vd as [(_ & X)|(V & _)]; [|exact V]. destruct X as (t & _ & m & s & [<-|[]] & Ty & _). discriminate Ty.
Qed.
