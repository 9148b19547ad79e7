From Coq Require Import Reals List Bool Arith Lra Lia Permutation.
From Verif Require Import Base ResultLib GeomModel GeomBase WayModel AucModel AucProofs AucCounts.
From Verif Require OfmModel OfmSpec OfmMetrics.
From Verif Require Import AucSpec.
Import ListNotations.
Open Scope R_scope.

Lemma accepted p : if forallb (fun p => rleb 0 p && rleb p 1) p then (forall x, In x p -> 0 <= x <= 1) else exists x, In x p /\ (x < 0 \/ 1 < x).
Proof.
  induction p as [|x p I]; [intros x []|]. cbn [forallb]. destruct (rleb 0 x) eqn:E; cbn [andb].
  - destruct (rleb x 1) eqn:F; cbn [andb].
    + apply rleb_iff in E. apply rleb_iff in F. destruct (forallb _ p).
      * intros y [<-|Y]; auto.
      * destruct I as (y & Y & B). exists y. split; [now right|exact B].
    + apply rleb_false in F. exists x. split; [now left|lra].
  - apply rleb_false in E. exists x. split; [now left|lra].
Qed.
Theorem auc_accepted t p :
  ((exists v, compute_occupancy_auc t p = Ok v) <-> forall x, In x p -> 0 <= x <= 1) /\
  (compute_occupancy_auc t p = Err ValueError <-> exists x, In x p /\ (x < 0 \/ 1 < x)).
Proof.
  pose proof (accepted p) as C. unfold compute_occupancy_auc. destruct (forallb _ p).
  - split; split; intros H; auto; [eexists; reflexivity|discriminate|]. destruct H as (x & X & B). specialize (C x X). lra.
  - split; split; intros H; auto; [destruct H; discriminate|]. destruct C as (x & X & B). specialize (H x X). lra.
Qed.
Lemma auc_ok t p v : compute_occupancy_auc t p = Ok v -> v = auc_value (combine t p) /\ all_predicted (combine t p).
Proof.
  intros E. pose proof (accepted p) as C. unfold compute_occupancy_auc in E. destruct (forallb _ p); [|discriminate]. injection E as <-.
  split; [reflexivity|]. intros [y x] I. apply C. exact (in_combine_r _ _ _ _ I).
Qed.
Theorem auc_range t p v : compute_occupancy_auc t p = Ok v -> 0 <= v <= 1.
Proof. intros E. apply auc_ok in E as [-> A]. now apply value_range. Qed.
Theorem auc_zero t p v : compute_occupancy_auc t p = Ok v -> v = 0 <-> forall c, In c (combine t p) -> occupied c = false.
Proof. intros E. apply auc_ok in E as [-> A]. now apply value_zero. Qed.
Theorem auc_one t p v : compute_occupancy_auc t p = Ok v -> (exists c, In c (combine t p) /\ occupied c = true) ->
  v = 1 <->
  (forall c, In c (combine t p) -> occupied c = true) \/
  exists k, (1 <= k <= 98)%nat /\ forall c, In c (combine t p) -> occupied c = true <-> INR k / 99 < snd c.
Proof. intros E. apply auc_ok in E as [-> A]. now apply value_one. Qed.
Theorem auc_blind t p v : compute_occupancy_auc t p = Ok v -> combine t p <> [] ->
  (forall c d, In c (combine t p) -> In d (combine t p) -> same_levels (snd c) (snd d)) -> v = share (combine t p).
Proof. intros E. apply auc_ok in E as [-> A]. now apply value_blind. Qed.
Theorem auc_order t p v t' p' v' : compute_occupancy_auc t p = Ok v -> compute_occupancy_auc t' p' = Ok v' ->
  Permutation (combine t p) (combine t' p') -> v = v'.
Proof. intros E E'. apply auc_ok in E as [-> A]. apply auc_ok in E' as [-> A']. apply value_perm. Qed.
Theorem auc_levels t p v t' p' v' : compute_occupancy_auc t p = Ok v -> compute_occupancy_auc t' p' = Ok v' ->
  Forall2 (fun c d => occupied c = occupied d /\ same_levels (snd c) (snd d)) (combine t p) (combine t' p') -> v = v'.
Proof. intros E E'. apply auc_ok in E as [-> A]. apply auc_ok in E' as [-> A']. now apply value_levels. Qed.
Theorem auc_area t p v : compute_occupancy_auc t p = Ok v -> (exists c, In c (combine t p) /\ occupied c = true) ->
  exists areas, length areas = 99%nat /\
    (forall k, (k < 99)%nat -> interpolated_area (hits (combine t p) (S k)) (alarms (combine t p) (S k)) (hits (combine t p) k) (alarms (combine t p) k) (nth k areas 0)) /\
    v = total areas / number occupied (combine t p).
Proof. intros E. apply auc_ok in E as [-> A]. now apply value_area. Qed.
(** The specification of an area leaves no choice. *)
Theorem area_unique h1 a1 h0 a0 x y : 0 <= h1 -> 0 <= a1 -> h1 + a1 < h0 + a0 ->
  interpolated_area h1 a1 h0 a0 x -> interpolated_area h1 a1 h0 a0 y -> x = y.
Proof.
  intros H1 A1 L (F & Fx & DF) (G & Gy & DG). set (s := (h0 - h1) / (h0 + a0 - (h1 + a1))).
  assert (S0 : s * (h0 + a0 - (h1 + a1)) = h0 - h1) by (unfold s; field; lra).
  destruct (DF s S0 L) as [CF D]. destruct (DG s S0 L) as [CG E].
  set (a := h1 + a1) in *. set (b := h0 + a0) in *.
  set (d := fun q => s * ((h1 + s * (q - a)) / q)) in *.
  assert (pF : forall c, a < c < b -> derivable_pt F c) by (intros c C; exists (d c); now apply D).
  assert (pG : forall c, a < c < b -> derivable_pt G c) by (intros c C; exists (d c); now apply E).
  assert (Q : forall c, a < c < b -> derivable_pt (F - G)%F c) by (intros c C; apply derivable_pt_minus; auto).
  destruct (MVT (F - G)%F id a b Q (fun c _ => derivable_pt_id c) L) as (c & C & M).
  - intros c C. apply continuity_pt_minus; auto.
  - intros c C. apply derivable_continuous_pt, derivable_pt_id.
  - rewrite (derive_pt_eq_0 (F - G)%F c (d c - d c) (Q c C)) in M by (apply derivable_pt_lim_minus; [now apply D|now apply E]).
    rewrite derive_pt_id in M. unfold minus_fct, id in M. lra.
Qed.

(** Better ranking below the first level goes unseen. *)
Lemma inr_ge1 k : (1 <= k)%nat -> 1 <= INR k.
Proof. intros K. change 1 with (INR 1). now apply le_INR. Qed.
Theorem rank_refuted : exists t p, compute_occupancy_auc t p = Ok (1 / 2) /\ compute_occupancy_auc t (map (fun x => 200 * x) p) = Ok 1.
Proof.
  exists [1; 0], [1 / 200; 1 / 300]. split.
  - destruct (proj1 (auc_accepted [1; 0] [1 / 200; 1 / 300])) as [_ [v V]]. { intros x [<-|[<-|[]]]; lra. } rewrite V. f_equal.
    rewrite (auc_blind _ _ _ V) by (try discriminate; intros c d; cbn [combine]; intros [<-|[<-|[]]] [<-|[<-|[]]] k K;
      pose proof (inr_ge1 k ltac:(lia)); cbn [snd]; lra).
    unfold share, number, occupied. cbn [combine filter fst]. destruct (Req_EM_T 1 0); [lra|]. destruct (Req_EM_T 0 0); [|lra]. cbn. lra.
  - cbn [map]. destruct (proj1 (auc_accepted [1; 0] [200 * (1 / 200); 200 * (1 / 300)])) as [_ [v V]]. { intros x [<-|[<-|[]]]; lra. } rewrite V. f_equal.
    assert (O1 : forall x, occupied (1, x) = true) by (intros x; unfold occupied; cbn [fst]; destruct Req_EM_T; [lra|reflexivity]).
    assert (O0 : forall x, occupied (0, x) = false) by (intros x; unfold occupied; cbn [fst]; destruct Req_EM_T; [reflexivity|lra]).
    apply (auc_one _ _ _ V).
    + eexists. split; [left; reflexivity|apply O1].
    + right. exists 98%nat. split; [lia|]. replace (INR 98) with 98 by (rewrite INR_IZR_INZ; reflexivity).
      intros c [<-|[<-|[]]]; [rewrite O1|rewrite O0]; cbn [snd]; split; intros; try reflexivity; try discriminate; lra.
Qed.

(** ** The metrics of a scene *)
Lemma average_range {A} (f : A -> R) l : (forall k, In k l -> 0 <= f k <= 1) -> 0 <= OfmSpec.average f l <= 1.
Proof.
  intros H. unfold OfmSpec.average. destruct l as [|k l]; [lra|]. set (m := k :: l) in *. clearbody m.
  assert (T : 0 <= OfmSpec.total f m <= INR (length m)).
  { clear k l. induction m as [|k m I]; [cbn; lra|]. cbn [OfmSpec.total length]. rewrite S_INR. pose proof (H k (or_introl eq_refl)). pose proof (I (fun j J => H j (or_intror J))). lra. }
  destruct (Req_dec (INR (length m)) 0) as [Z|Z].
  - rewrite Z in *. replace (OfmSpec.total f m) with 0 by lra. unfold Rdiv. lra.
  - pose proof (pos_INR (length m)). split; [apply Rmult_le_pos; [lra|left; apply Rinv_0_lt_compat; lra]|].
    apply (Rmult_le_reg_r (INR (length m))); [lra|]. unfold Rdiv. rewrite Rmult_assoc, Rinv_l by exact Z. lra.
Qed.
Lemma average_one {A} (f : A -> R) l : l <> [] -> (forall k, In k l -> f k = 1) -> OfmSpec.average f l = 1.
Proof.
  intros N H. unfold OfmSpec.average. destruct l as [|k l]; [contradiction|]. set (m := k :: l) in *.
  assert (T : OfmSpec.total f m = INR (length m)).
  { clearbody m. induction m as [|j m I]; [reflexivity|]. cbn [OfmSpec.total length]. rewrite S_INR, (H j (or_introl eq_refl)).
    destruct m as [|i m']; [cbn; lra|]. rewrite I by (try discriminate; intros q Q; apply H; now right). lra. }
  rewrite T. unfold Rdiv. apply Rinv_r. unfold m. cbn [length]. apply not_0_INR. lia.
Qed.
Lemma scores_exist t p : (forall x, In x p -> 0 <= x <= 1) -> compute_occupancy_auc t p = Ok (auc_value (combine t p)).
Proof. intros H. pose proof (accepted p) as C. unfold compute_occupancy_auc. destruct (forallb _ p); [reflexivity|]. destruct C as (x & X & B). specialize (H x X). lra. Qed.
Lemma nth_prob (l : list (list R)) k : (forall g, In g l -> OfmSpec.probabilities g) -> OfmSpec.probabilities (nth k l []).
Proof. intros H. destruct (nth_in_or_default k l []) as [I| ->]; [now apply H|]. intros x []. Qed.
Theorem metrics_range auc n cells t p w m : (forall t p, (forall x, In x p -> 0 <= x <= 1) -> compute_occupancy_auc t p = Ok (auc t p)) ->
  OfmSpec.has_waypoints n cells t -> OfmSpec.has_waypoints n cells p -> length w = n ->
  OfmModel.metrics_given auc n t p w = Ok m -> OfmSpec.all_probabilities p -> (forall g, In g w -> OfmSpec.probabilities g) ->
  0 <= OfmModel.vehicles_observed_auc m <= 1 /\ 0 <= OfmModel.vehicles_occluded_auc m <= 1 /\ 0 <= OfmModel.vehicles_flow_warped_occupancy_auc m <= 1.
Proof.
  intros Sc Ht Hp Hw E [P1 P2] Pw. destruct (OfmMetrics.given_value auc n cells t p w Ht Hp Hw) as (m' & E' & V).
  rewrite E in E'. injection E' as <-. destruct V as (seen & hidden & moved & _ & _ & _ & _ & (V1 & V2 & V3) & _).
  assert (U : forall x y, OfmSpec.probabilities y -> 0 <= auc x y <= 1). { intros x y Y. exact (auc_range _ _ _ (Sc x y Y)). }
  rewrite V1, V2, V3. repeat split; apply average_range; intros k K; apply U.
  1,2: now apply nth_prob. 1,2: now apply nth_prob.
  all: unfold OfmSpec.grounded, OfmSpec.times; intros x X; apply in_map_iff in X as ([u v] & <- & X); cbn [fst snd];
    pose proof (in_combine_l _ _ _ _ X) as Xl; pose proof (in_combine_r _ _ _ _ X) as Xr;
    pose proof (nth_prob w k Pw v Xr) as Pv; unfold OfmSpec.either in Xl; apply in_map_iff in Xl as ([i j] & <- & _); cbn [fst snd];
    assert (0 <= Rmax 0 (Rmin 1 (i + j)) <= 1) by (split; [apply Rmax_l|apply Rmax_lub; [lra|apply Rmin_l]]); split; nra.
Qed.
Lemma combine_self (l : list R) c : In c (combine l l) -> fst c = snd c /\ In (fst c) l.
Proof. induction l as [|x l I]; [intros []|]. intros [<-|H]; [split; [reflexivity|now left]|]. destruct (I H). split; [auto|now right]. Qed.
Theorem perfect_one g v : OfmSpec.binary g -> OfmSpec.shows_something g -> compute_occupancy_auc g g = Ok v -> v = 1.
Proof.
  intros B (x & X & P) E.
  assert (O : forall c, In c (combine g g) -> occupied c = true <-> snd c = 1).
  { intros c C. destruct (combine_self g c C) as [D I]. destruct (B _ I) as [Z|Z]; unfold occupied; destruct Req_EM_T; split; intros; try discriminate; try reflexivity; lra. }
  apply (auc_one _ _ _ E).
  - exists (x, x). assert (I : In (x, x) (combine g g)). { clear -X. induction g as [|y g I]; [destruct X|]. destruct X as [->|X]; [now left|right; auto]. }
    split; [exact I|]. apply O; [exact I|]. destruct (B x X); [lra|assumption].
  - right. exists 1%nat. split; [lia|]. cbn [INR]. intros c C. rewrite (O c C). destruct (combine_self g c C) as [D I]. destruct (B _ I) as [Z|Z]; rewrite Z in D; rewrite <- D; split; intros; lra.
Qed.
Theorem metrics_perfect auc n cells t p w m : (forall t p, (forall x, In x p -> 0 <= x <= 1) -> compute_occupancy_auc t p = Ok (auc t p)) ->
  OfmSpec.has_waypoints n cells t -> OfmSpec.has_waypoints n cells p -> length w = n ->
  OfmModel.metrics_given auc n t p w = Ok m -> OfmSpec.all_binary t ->
  OfmModel.observed p = OfmModel.observed t -> OfmModel.occluded p = OfmModel.occluded t ->
  ((0 < OfmModel.num_waypoints_with_observed_occupancy m)%nat -> OfmModel.vehicles_observed_auc m = 1) /\
  ((0 < OfmModel.num_waypoints_with_occluded_occupancy m)%nat -> OfmModel.vehicles_occluded_auc m = 1).
Proof.
  intros Sc Ht Hp Hw E [B1 B2] Eo Ec. destruct (OfmMetrics.given_value auc n cells t p w Ht Hp Hw) as (m' & E' & V).
  rewrite E in E'. injection E' as <-. destruct V as (seen & hidden & moved & S1 & S2 & _ & (N1 & N2 & _) & (V1 & V2 & _) & _).
  assert (U : forall g, OfmSpec.binary g -> OfmSpec.shows_something g -> auc g g = 1).
  { intros g B Sg. apply (perfect_one g _ B Sg). apply Sc. intros x X. destruct (B x X); lra. }
  split; intros P.
  - rewrite V1. apply average_one. { intros Z. rewrite Z in N1. cbn in N1. lia. }
    intros k K. apply S1 in K as [L Sk]. unfold OfmSpec.true_observed, OfmSpec.pred_observed. rewrite Eo. apply U; [|exact Sk].
    unfold OfmSpec.shown_at in Sk. destruct (nth_in_or_default k (OfmModel.observed t) []) as [I|Z]; [now apply B1|]. rewrite Z. intros x [].
  - rewrite V2. apply average_one. { intros Z. rewrite Z in N2. cbn in N2. lia. }
    intros k K. apply S2 in K as [L Sk]. unfold OfmSpec.true_hidden, OfmSpec.pred_hidden. rewrite Ec. apply U; [|exact Sk].
    unfold OfmSpec.shown_at in Sk. destruct (nth_in_or_default k (OfmModel.occluded t) []) as [I|Z]; [now apply B2|]. rewrite Z. intros x [].
Qed.
