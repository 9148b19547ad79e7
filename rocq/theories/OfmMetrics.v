From Coq Require Import Reals List Lra Lia Arith Bool.
From Verif Require Import Base ResultLib ListLib GeomModel GeomBase WayModel OfmModel OfmSpec OfmIou OfmEpe.
Import ListNotations.
Open Scope R_scope.

Lemma foldM_last {A S} (f : S -> A -> result S) l x : forall s, foldM f (l ++ [x]) s = do s' <- foldM f l s; f s' x.
Proof.
  induction l as [|a l IH]; intro s; cbn [foldM app].
  - unfold bind. destruct (f s x); reflexivity.
  - unfold bind in *. destruct (f s a); [apply IH|reflexivity].
Qed.
Lemma at_k_ok {A} (l : list A) k d : (k < length l)%nat -> at_k l k = Ok (nth k l d).
Proof.
  intro H. unfold at_k, index. rewrite (proj2 (Z.ltb_ge (Z.of_nat k) 0)) by lia. rewrite (proj2 (Z.ltb_ge (Z.of_nat k) 0)) by lia.
  rewrite Nat2Z.id, (nth_error_nth' l d H). reflexivity.
Qed.
Lemma reduce_max_pos l m : reduce_max l = Some m -> (0 < m <-> exists x, In x l /\ 0 < x).
Proof.
  revert m. induction l as [|a l IH]; intros m E; cbn [reduce_max] in E; [discriminate|]. destruct (reduce_max l) as [y|] eqn:F.
  - injection E as <-. specialize (IH y eq_refl). unfold Rmax. destruct (Rle_dec a y); split.
    + intro P. apply IH in P. destruct P as (x & I & X). exists x. split; [now right|exact X].
    + intros (x & [<-|I] & X); [lra|]. apply IH. exists x. tauto.
    + intro P. exists a. split; [now left|exact P].
    + intros (x & [<-|I] & X); [exact X|]. assert (0 < y) by (apply IH; exists x; tauto). lra.
  - injection E as <-. destruct l as [|b l]; [|cbn [reduce_max] in F; destruct (reduce_max l); discriminate]. split.
    + intro P. exists a. split; [now left|exact P].
    + intros (x & [<-|[]] & X). exact X.
Qed.
Lemma has_iff g : has_occupancy g = true <-> shows_something g.
Proof.
  unfold has_occupancy, shows_something. destruct (reduce_max g) as [m|] eqn:E.
  - rewrite rltb_iff. now apply reduce_max_pos.
  - destruct g as [|a g]; [|cbn [reduce_max] in E; destruct (reduce_max g); discriminate]. split; [discriminate|]. intros (x & [] & _).
Qed.
Lemma clip_eq x : clip01 x = Rmax 0 (Rmin 1 x).
Proof. unfold clip01, Rmax, Rmin. repeat destruct (Rle_dec _ _); lra. Qed.
Lemma either_eq a b : clipped_sum a b = either a b.
Proof. unfold clipped_sum, either. apply map_ext. intro c. apply clip_eq. Qed.
Lemma filter_last {A} (f : A -> bool) l x : filter f (l ++ [x]) = filter f l ++ (if f x then [x] else []).
Proof. rewrite filter_app. reflexivity. Qed.

Section Run.
Variable auc : grid -> grid -> R.
Variables (n cells : nat) (t p : vehicle_waypoints) (w : list grid).
Hypothesis T : has_waypoints n cells t.
Hypothesis P : has_waypoints n cells p.
Hypothesis W : length w = n.
Let obs k := has_occupancy (true_observed t k).
Let hid k := has_occupancy (true_hidden t k).
Definition before (f : nat -> bool) (k : nat) : bool := match k with 0%nat => true | S j => f j end.
Let mov k := (obs k && before obs k) || (hid k && before hid k).
Definition reached k : accumulated :=
  {| observed_auc := map (fun k => auc (true_observed t k) (pred_observed p k)) (filter obs (seq 0 k));
     occluded_auc := map (fun k => auc (true_hidden t k) (pred_hidden p k)) (filter hid (seq 0 k));
     observed_iou := map (fun k => compute_occupancy_soft_iou (true_observed t k) (pred_observed p k)) (filter obs (seq 0 k));
     occluded_iou := map (fun k => compute_occupancy_soft_iou (true_hidden t k) (pred_hidden p k)) (filter hid (seq 0 k));
     flow_epe := map (fun k => compute_flow_epe (nth k (flows t) []) (nth k (flows p) [])) (filter mov (seq 0 k));
     warped_auc := map (fun k => auc (true_all t k) (grounded p w k)) (filter mov (seq 0 k));
     warped_iou := map (fun k => compute_occupancy_soft_iou (true_all t k) (grounded p w k)) (filter mov (seq 0 k));
     num_observed := length (filter obs (seq 0 k)); num_occluded := length (filter hid (seq 0 k)); num_flow := length (filter mov (seq 0 k));
     had_observed := before obs k; had_occluded := before hid k |}.
Lemma run_reached k : (k <= n)%nat -> foldM (waypoint auc t p w) (seq 0 k) nothing = Ok (reached k).
Proof.
  induction k as [|k IH]; intro B; [reflexivity|]. rewrite seq_S, foldM_last, IH by lia. cbn [bind Nat.add].
  destruct T as ((T1 & T2 & T3) & _). destruct P as ((P1 & P2 & P3) & _). unfold waypoint.
  rewrite (at_k_ok (observed t) k []), (at_k_ok (observed p) k []), (at_k_ok (occluded t) k []), (at_k_ok (occluded p) k []), (at_k_ok (flows t) k []), (at_k_ok (flows p) k []), (at_k_ok w k []) by lia.
  cbn [bind]. fold (true_observed t k) (pred_observed p k) (true_hidden t k) (pred_hidden p k).
  cbn [had_observed had_occluded reached]. fold (obs k) (hid k). fold (mov k).
  unfold reached. rewrite seq_S, !filter_last. cbn [Nat.add]. rewrite !map_app, !app_length.
  cbn [observed_auc occluded_auc observed_iou occluded_iou flow_epe warped_auc warped_iou num_observed num_occluded num_flow before].
  rewrite !either_eq. fold (true_all t k). 
  destruct (mov k), (obs k), (hid k); cbn [map List.length]; rewrite ?app_nil_r, ?Nat.add_0_r; reflexivity.
Qed.
Lemma before_kept f (l : list grid) k : (forall j, f j = true <-> shown_at l j) -> (f k && before f k = true <-> kept l k).
Proof.
  intro H. rewrite andb_true_iff, (H k). unfold kept, before. destruct k as [|k]; [tauto|].
  rewrite (H k). replace (S k - 1)%nat with k by lia. split; intros [A B]; split; try assumption; [now right|]. destruct B as [B|B]; [discriminate|exact B].
Qed.
Lemma exactly_filter f (q : nat -> Prop) : (forall k, f k = true <-> q k) -> exactly (filter f (seq 0 n)) (fun k => (k < n)%nat /\ q k).
Proof.
  intro H. split; [apply NoDup_filter, seq_NoDup|]. intro k. rewrite filter_In, in_seq, (H k). split; intros [A B]; split; try assumption; lia.
Qed.
Lemma obs_iff k : obs k = true <-> shown_at (observed t) k.
Proof. apply has_iff. Qed.
Lemma hid_iff k : hid k = true <-> shown_at (occluded t) k.
Proof. apply has_iff. Qed.
Theorem given_value : exists m, metrics_given auc n t p w = Ok m /\ averages_scores t p w auc n m.
Proof.
  exists (summary (reached n)). split; [unfold metrics_given; rewrite run_reached by lia; reflexivity|].
  exists (filter obs (seq 0 n)), (filter hid (seq 0 n)), (filter mov (seq 0 n)).
  split; [apply exactly_filter, obs_iff|]. split; [apply exactly_filter, hid_iff|]. split.
  { apply exactly_filter. intro k. unfold mov. rewrite orb_true_iff, (before_kept obs _ k obs_iff), (before_kept hid _ k hid_iff). reflexivity. }
  split; [repeat split|]. cbn [summary reached vehicles_observed_auc vehicles_occluded_auc vehicles_observed_iou vehicles_occluded_iou vehicles_flow_epe
    vehicles_flow_warped_occupancy_auc vehicles_flow_warped_occupancy_iou observed_auc occluded_auc observed_iou occluded_iou flow_epe warped_auc warped_iou].
  rewrite !mean_average. tauto.
Qed.
End Run.

(** The function itself never gets there. *)
Lemma metrics_fail auc n t p : (0 < n)%nat ->
  compute_occupancy_flow_metrics auc n t p = Err (if Nat.eqb (length (flow_origin t)) 0 || Nat.eqb (length (flows p)) 0 then IndexError else RuntimeError).
Proof.
  intro N. unfold compute_occupancy_flow_metrics, flow_warp. destruct n as [|n]; [lia|]. cbn [seq foldM].
  unfold at_k, index. cbn [Z.of_nat Z.ltb Z.compare Z.to_nat]. destruct (flow_origin t) as [|a l]; [reflexivity|]. cbn [nth_error bind].
  destruct (flows p) as [|b f]; reflexivity.
Qed.
Lemma metrics_none auc t p : exists m, compute_occupancy_flow_metrics auc 0 t p = Ok m /\
  vehicles_observed_iou m = 0 /\ vehicles_flow_epe m = 0 /\ num_waypoints_with_observed_occupancy m = 0%nat.
Proof. eexists. split; [reflexivity|]. cbn. tauto. Qed.

(** Ranges. *)
Lemma nth_in_or {A} (l : list A) k d : (k < length l)%nat -> In (nth k l d) l.
Proof. apply nth_In. Qed.
Lemma probabilities_either a b : probabilities (either a b).
Proof. intros x I. apply in_map_iff in I. destruct I as (c & <- & _). unfold Rmax, Rmin. repeat destruct (Rle_dec _ _); lra. Qed.
Lemma probabilities_times a b : probabilities a -> probabilities b -> probabilities (times a b).
Proof.
  intros A B x I. apply in_map_iff in I. destruct I as ((u & v) & <- & J). cbn [fst snd]. pose proof (A u (in_combine_l _ _ _ _ J)). pose proof (B v (in_combine_r _ _ _ _ J)). nra.
Qed.
Lemma either_length a b : length a = length b -> length (either a b) = length a.
Proof. intro L. unfold either. rewrite map_length, combine_length. lia. Qed.
Lemma times_length a b : length a = length b -> length (times a b) = length a.
Proof. intro L. unfold times. rewrite map_length, combine_length. lia. Qed.
Section Range.
Variables (auc : grid -> grid -> R) (n cells : nat) (t p : vehicle_waypoints) (w : list grid) (m : metrics).
Hypothesis T : has_waypoints n cells t.
Hypothesis P : has_waypoints n cells p.
Hypothesis W : length w = n.
Hypothesis C : (0 < cells)%nat.
Hypothesis E : metrics_given auc n t p w = Ok m.
Lemma averages : averages_scores t p w auc n m.
Proof. destruct (given_value auc n cells t p w T P W) as (m' & E' & A). rewrite E' in E. injection E as <-. exact A. Qed.
Lemma not_nil {A} (g : list A) : length g = cells -> g <> [].
Proof. intros L ->. cbn in L. lia. Qed.
Lemma iou_in_range : all_probabilities t -> all_probabilities p -> (forall g, In g w -> length g = cells /\ probabilities g) ->
  0 <= vehicles_observed_iou m <= 1 /\ 0 <= vehicles_occluded_iou m <= 1 /\ 0 <= vehicles_flow_warped_occupancy_iou m <= 1 /\ 0 <= vehicles_flow_epe m.
Proof.
  intros [A1 A2] [B1 B2] G. destruct averages as (so & sh & sm & X1 & X2 & X3 & _ & _ & (I1 & I2 & I3) & I4). rewrite I1, I2, I3, I4.
  destruct T as ((T1 & T2 & T3) & T4 & T5 & T6). destruct P as ((P1 & P2 & P3) & P4 & P5 & P6).
  assert (R1 : forall k, In k so -> 0 <= compute_occupancy_soft_iou (true_observed t k) (pred_observed p k) <= 1).
  { intros k K. apply (proj2 X1) in K. destruct K as [K _].
    assert (L1 : length (true_observed t k) = cells) by (apply T4, nth_In; lia). assert (L2 : length (pred_observed p k) = cells) by (apply P4, nth_In; lia).
    apply iou_range; [congruence|now apply not_nil|apply A1, nth_In; lia|apply B1, nth_In; lia]. }
  assert (R2 : forall k, In k sh -> 0 <= compute_occupancy_soft_iou (true_hidden t k) (pred_hidden p k) <= 1).
  { intros k K. apply (proj2 X2) in K. destruct K as [K _].
    assert (L1 : length (true_hidden t k) = cells) by (apply T5, nth_In; lia). assert (L2 : length (pred_hidden p k) = cells) by (apply P5, nth_In; lia).
    apply iou_range; [congruence|now apply not_nil|apply A2, nth_In; lia|apply B2, nth_In; lia]. }
  assert (R3 : forall k, In k sm -> 0 <= compute_occupancy_soft_iou (true_all t k) (grounded p w k) <= 1).
  { intros k K. apply (proj2 X3) in K. destruct K as [K _].
    assert (L1 : length (true_observed t k) = cells) by (apply T4, nth_In; lia). assert (L2 : length (pred_observed p k) = cells) by (apply P4, nth_In; lia).
    assert (L3 : length (true_hidden t k) = cells) by (apply T5, nth_In; lia). assert (L4 : length (pred_hidden p k) = cells) by (apply P5, nth_In; lia).
    destruct (G (nth k w [])) as [L5 L6]; [apply nth_In; lia|].
    assert (L7 : length (true_all t k) = cells) by (unfold true_all; rewrite either_length; congruence).
    assert (L8 : length (either (pred_observed p k) (pred_hidden p k)) = cells) by (rewrite either_length; congruence).
    assert (L9 : length (grounded p w k) = cells) by (unfold grounded; rewrite times_length; [exact L8|exact (eq_trans L8 (eq_sym L5))]).
    apply iou_range; [congruence|now apply not_nil|apply probabilities_either|]. apply probabilities_times; [apply probabilities_either|exact L6]. }
  assert (Q : forall f l, (forall k : nat, In k l -> 0 <= f k <= 1) -> 0 <= average f l <= 1).
  { intros f l H. split; [apply average_nonneg; intros; now apply H|apply average_le; [lra|intros; now apply H]]. }
  repeat (apply conj; [apply Q; assumption|]). apply average_nonneg. intros k K. apply (proj2 X3) in K. destruct K as [K _].
  apply epe_nonneg. transitivity cells; [|symmetry]; [apply T6|apply P6]; apply nth_In; [rewrite T3|rewrite P3]; exact K.
Qed.
(** A perfect prediction of binary grids. *)
Lemma perfect : all_binary t -> observed p = observed t -> occluded p = occluded t -> flows p = flows t ->
  ((0 < num_waypoints_with_observed_occupancy m)%nat -> vehicles_observed_iou m = 1) /\
  ((0 < num_waypoints_with_occluded_occupancy m)%nat -> vehicles_occluded_iou m = 1) /\ vehicles_flow_epe m = 0.
Proof.
  intros [B1 B2] O H F. destruct averages as (so & sh & sm & X1 & X2 & X3 & (N1 & N2 & _) & _ & (I1 & I2 & _) & I4). rewrite I1, I2, I4, N1, N2.
  destruct T as ((T1 & T2 & T3) & T4 & T5 & T6). split; [|split].
  - intro N. apply average_const; [intros ->; cbn in N; lia|]. intros k K. apply (proj2 X1) in K. destruct K as [K Y]. unfold pred_observed. rewrite O. fold (true_observed t k).
    assert (B : binary (true_observed t k)) by (apply B1, nth_In; lia). assert (R : probabilities (true_observed t k)) by (intros x I; destruct (B x I); lra).
    apply iou_one; [reflexivity| |exact R|exact R|]; [|exact (conj eq_refl (conj B Y))]. apply not_nil. apply T4, nth_In. lia.
  - intro N. apply average_const; [intros ->; cbn in N; lia|]. intros k K. apply (proj2 X2) in K. destruct K as [K Y]. unfold pred_hidden. rewrite H. fold (true_hidden t k).
    assert (B : binary (true_hidden t k)) by (apply B2, nth_In; lia). assert (R : probabilities (true_hidden t k)) by (intros x I; destruct (B x I); lra).
    apply iou_one; [reflexivity| |exact R|exact R|]; [|exact (conj eq_refl (conj B Y))]. apply not_nil. apply T5, nth_In. lia.
  - apply average_zero; [|intros k K]; rewrite F.
    + intros k K. apply epe_nonneg. reflexivity.
    + apply epe_zero; reflexivity.
Qed.
End Range.
