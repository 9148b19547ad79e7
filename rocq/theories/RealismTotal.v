(** The weighted sum of the scores, for the configurations of the challenges. *)
From Coq Require Import QArith Reals Qreals Lia Lra Arith.
From Verif Require Import Base ResultLib EstimatorModel EstimatorSpec MetametricModel RealismModel RealismSpec RealismProofs RealismScores.
Open Scope list_scope.

Lemma challenge_smooth sg : smooth_config (challenge_config sg).
Proof. intros []; cbn; repeat split; try reflexivity; lia. Qed.

Lemma any_score gauss config ft nr no nt m :
  nr <> 0%nat -> no <> 0%nat -> (2 <= nt)%nat -> well_shaped nr no nt ft -> smooth_config config ->
  exists s, score gauss config ft m = Ok s /\ feature_score gauss config ft nr no nt m s /\ (forall g, s = Some g -> (0 < g < 1)%R).
Proof.
  intros A B C W Sc. unfold feature_score. destruct (is_event m) eqn:E.
  - destruct (event_spec gauss config ft nr no nt m A B C W Sc E) as (g & H & Es & Bd). exists (Some g). repeat split; try assumption;
      injection H0 as <-; apply Bd.
  - exact (series_spec gauss config ft nr no nt m A B C W Sc E).
Qed.

Lemma score_nan gauss config ft nr no nt m s : feature_score gauss config ft nr no nt m s ->
  (s = None <-> is_event m = false /\ ~ anything ft no nt m).
Proof.
  unfold feature_score. destruct (is_event m).
  - intros (a & l & g & _ & -> & _). split; [discriminate|]. intros [C _]. discriminate.
  - intros (en & l & _ & Hin & _ & H). split.
    + intros ->. subst en. split; [reflexivity|]. intros (o & t & Bo & Bt & Sd). exact (proj2 (Hin o t) (conj Bo (conj Bt Sd))).
    + intros [_ N]. destruct s as [g|]; [|reflexivity]. exfalso. destruct H as [Ne _]. destruct en as [|[o t] en]; [contradiction|].
      apply N. exists o, t. apply Hin. left. reflexivity.
Qed.

Lemma valid_in ft no nt o t : sized no nt (valid ft) -> valid_at ft o t = true -> (o < no)%nat /\ (t < nt)%nat.
Proof.
  intros [L F] H. unfold valid_at in H. destruct (Nat.lt_ge_cases o no) as [Bo|Bo].
  - split; [exact Bo|]. rewrite <- (F (nth o (valid ft) [])) by (apply nth_In; lia). destruct (Nat.lt_ge_cases t (length (nth o (valid ft) []))) as [Bt|Bt]; [exact Bt|].
    rewrite nth_overflow in H by exact Bt. discriminate.
  - rewrite (nth_overflow (valid ft)) in H by lia. destruct t; discriminate.
Qed.

Lemma acceleration_enough ft no nt m : sized no nt (valid ft) -> anything ft no nt LinearAcceleration -> anything ft no nt TimeToCollision ->
  is_event m = false -> anything ft no nt m.
Proof.
  intros Wv A V E. destruct A as (o & t & Bo & Bt & (B1 & B2 & B3 & B4)).
  destruct m; try discriminate E; try exact V; try (exists o, t; repeat split; assumption).
  all: exists o, (t + 1)%nat; split; [exact Bo|]; split; [apply (valid_in ft no nt o (t + 2) Wv) in B4; lia|];
    cbn; split; [lia|]; replace (t + 1 - 1)%nat with t by lia; replace (t + 1 + 1)%nat with (t + 2)%nat by lia; auto.
Qed.

Lemma mapM_each {A B} (f : A -> result B) (P : A -> B -> Prop) : forall l, (forall a, In a l -> exists b, f a = Ok b /\ P a b) ->
  exists r, mapM f l = Ok r /\ Forall2 P l r.
Proof.
  induction l as [|a l IH]; intros H; [exists []; split; [reflexivity|constructor]|].
  destruct (H a (or_introl eq_refl)) as (b & E & Pb). destruct IH as (r & Er & Fr); [intros x X; apply H; right; exact X|].
  exists (b :: r). cbn [mapM]. rewrite E. cbn [bind]. rewrite Er. split; [reflexivity|]. constructor; assumption.
Qed.

(** * The sum *)
Lemma plus_none : forall l, fold_left plus l None = None.
Proof. induction l as [|a l IH]; [reflexivity|]. exact IH. Qed.

Lemma sum_some (w : weights) : forall (ms : list metric) (g : metric -> R) a,
  fold_left plus (map (fun p => weighted (Q2R (w (fst p))) (snd p)) (combine ms (map (fun m => Some (g m)) ms))) (Some a)
  = Some (a + fold_right (fun m acc => (Q2R (w m) * g m + acc)%R) 0%R ms)%R.
Proof.
  induction ms as [|m ms IH]; intros g a; cbn [map combine fold_left fold_right fst snd weighted plus]; [f_equal; lra|]. rewrite IH. f_equal. lra.
Qed.

Lemma sum_none (w : weights) : forall (ms : list metric) (scores : list (option R)) a, length ms = length scores -> In None scores ->
  fold_left plus (map (fun p => weighted (Q2R (w (fst p))) (snd p)) (combine ms scores)) a = None.
Proof.
  induction ms as [|m ms IH]; intros [|s scores] a L H; cbn [length] in L; try discriminate; [destruct H|].
  cbn [map combine fold_left fst snd]. destruct H as [->|H]; [cbn [weighted]; destruct a; apply plus_none|]. apply IH; [lia|exact H].
Qed.

Lemma forall2_split ms (scores : list (option R)) (P : metric -> option R -> Prop) : NoDup ms -> Forall2 P ms scores ->
  In None scores \/ exists g, scores = map (fun m => Some (g m)) ms /\ forall m, In m ms -> P m (Some (g m)).
Proof.
  intros N F. induction F as [|m s ms scores Pm F IH]; [right; exists (fun _ => 0%R); split; [reflexivity|intros m []]|].
  inversion N as [|x y Nm Ns]; subst. destruct s as [x|]; [|left; left; reflexivity]. destruct (IH Ns) as [C|(g & E & H)]; [left; right; exact C|].
  right. exists (fun k => if metric_eq_dec k m then x else g k). split.
  - cbn [map]. destruct (metric_eq_dec m m) as [_|C]; [|contradiction]. f_equal. rewrite E. apply map_ext_in. intros k K.
    destruct (metric_eq_dec k m) as [->|_]; [contradiction|reflexivity].
  - intros k [<-|K]; [destruct (metric_eq_dec m m); [exact Pm|contradiction]|]. destruct (metric_eq_dec k m) as [->|_]; [contradiction|auto].
Qed.

Lemma metric_all m : In m metric_names.
Proof. destruct m; cbn; tauto. Qed.
Lemma metric_nodup : NoDup metric_names.
Proof. unfold metric_names, kinematic, interactive, map_based. cbn [app]. repeat constructor; cbn; intuition discriminate. Qed.

Lemma total_spec gauss config w ft nr no nt :
  nr <> 0%nat -> no <> 0%nat -> (2 <= nt)%nat -> well_shaped nr no nt ft -> smooth_config config ->
  exists s, metametric gauss config w ft = Ok s /\
    (s = None <-> ~ anything ft no nt LinearAcceleration \/ ~ anything ft no nt TimeToCollision) /\
    (forall x, s = Some x -> exists g, x = weighted_sum w g /\
       forall m, feature_score gauss config ft nr no nt m (Some (g m)) /\ (0 < g m < 1)%R).
Proof.
  intros A B C W Sc.
  set (P := fun m s => feature_score gauss config ft nr no nt m s /\ forall g, s = Some g -> (0 < g < 1)%R).
  destruct (mapM_each (score gauss config ft) P metric_names) as (scores & E & F).
  { intros m _. destruct (any_score gauss config ft nr no nt m A B C W Sc) as (s & E & H). exists s. split; assumption. }
  unfold metametric. rewrite E. cbn [bind]. eexists. split; [reflexivity|].
  assert (sized no nt (valid ft)) as Wv by apply W.
  assert (length metric_names = length scores) as Ls by (clear - F; induction F; cbn; congruence).
  destruct (forall2_split metric_names scores P metric_nodup F) as [N|(g & Eq & H)].
  - rewrite (sum_none w _ _ _ Ls N). split; [|discriminate]. split; [intros _|reflexivity].
    assert (exists m, P m None) as (m & Fm & _).
    { clear - F N. induction F as [|m s ms scores Pm F IH]; [destruct N|]. destruct N as [->|N]; [exists m; exact Pm|exact (IH N)]. }
    destruct (proj1 (score_nan _ _ _ _ _ _ _ _ Fm) eq_refl) as [Em Na].
    (* an entry is searched in finite sets *)
    assert (forall k, is_event k = false -> anything ft no nt k \/ ~ anything ft no nt k) as Dec.
    { intros k Ek. destruct (any_score gauss config ft nr no nt k A B C W Sc) as (s & _ & Fs & _). pose proof (score_nan _ _ _ _ _ _ _ _ Fs) as [N1 N2].
      destruct s as [x|]; [|right; apply N1; reflexivity]. left. unfold feature_score in Fs. rewrite Ek in Fs.
      destruct Fs as (en & l & _ & Hin & _ & Ne & _). destruct en as [|[o t] en]; [contradiction|]. exists o, t. apply Hin. left. reflexivity. }
    destruct (Dec LinearAcceleration eq_refl) as [DA|DA]; [|left; exact DA]. destruct (Dec TimeToCollision eq_refl) as [DV|DV]; [|right; exact DV].
    exfalso. exact (Na (acceleration_enough ft no nt m Wv DA DV Em)).
  - rewrite Eq, sum_some. split.
    + split; [discriminate|]. intros H'. exfalso.
      destruct H' as [H'|H'].
      * destruct (H LinearAcceleration (metric_all _)) as [Fm _]. discriminate (proj2 (score_nan _ _ _ _ _ _ _ _ Fm) (conj eq_refl H')).
      * destruct (H TimeToCollision (metric_all _)) as [Fm _]. discriminate (proj2 (score_nan _ _ _ _ _ _ _ _ Fm) (conj eq_refl H')).
    + intros x Ex. injection Ex as <-. exists g. split; [unfold weighted_sum; rewrite Rplus_0_l; reflexivity|].
      intros m. destruct (H m (metric_all m)) as [Fm Bm]. split; [exact Fm|]. exact (Bm _ eq_refl).
Qed.

(** For the weights of the challenges the sum is an average. *)
Lemma challenge_range g : (forall m, (0 < g m < 1)%R) -> (0 < weighted_sum challenge_weights g < 1)%R.
Proof.
  intros H. unfold weighted_sum. cbn [fold_right challenge_weights].
  pose proof (H LinearSpeed); pose proof (H LinearAcceleration); pose proof (H AngularSpeed); pose proof (H AngularAcceleration);
  pose proof (H DistanceToNearestObject); pose proof (H CollisionIndication); pose proof (H TimeToCollision); pose proof (H DistanceToRoadEdge);
  pose proof (H OffroadIndication); pose proof (H TrafficLightViolation). unfold Q2R. cbn [Qnum Qden]. lra.
Qed.

Lemma challenge_total sg gauss ft nr no nt :
  nr <> 0%nat -> no <> 0%nat -> (2 <= nt)%nat -> well_shaped nr no nt ft ->
  exists s, metametric gauss (challenge_config sg) challenge_weights ft = Ok s /\
    (s = None <-> ~ anything ft no nt LinearAcceleration \/ ~ anything ft no nt TimeToCollision) /\
    (forall x, s = Some x -> (0 < x < 1)%R).
Proof.
  intros A B C W. destruct (total_spec gauss (challenge_config sg) challenge_weights ft nr no nt A B C W (challenge_smooth sg)) as (s & E & N & H).
  exists s. split; [exact E|]. split; [exact N|]. intros x X. destruct (H x X) as (g & -> & Hg). apply challenge_range. intros m. apply Hg.
Qed.

(** A scenario without vehicles has no score. *)
Lemma no_vehicle sg gauss ft nr no nt :
  nr <> 0%nat -> no <> 0%nat -> (2 <= nt)%nat -> well_shaped nr no nt ft -> (forall o, (o < no)%nat -> vehicle ft o = false) ->
  metametric gauss (challenge_config sg) challenge_weights ft = Ok None.
Proof.
  intros A B C W V. destruct (challenge_total sg gauss ft nr no nt A B C W) as (s & E & N & _). rewrite E. f_equal. apply N. right.
  intros (o & t & Bo & _ & (Hv & _)). rewrite (V o Bo) in Hv. discriminate.
Qed.
(** Neither has one shorter than five steps. *)
Lemma short_log sg gauss ft nr no nt :
  nr <> 0%nat -> no <> 0%nat -> (2 <= nt <= 4)%nat -> well_shaped nr no nt ft ->
  metametric gauss (challenge_config sg) challenge_weights ft = Ok None.
Proof.
  intros A B C W. destruct (challenge_total sg gauss ft nr no nt A B (proj1 C) W) as (s & E & N & _). rewrite E. f_equal. apply N. left.
  intros (o & t & _ & _ & (H2 & _ & _ & H4)). destruct W as (_ & _ & Wv & _). apply (valid_in ft no nt) in H4; [|exact Wv]. lia.
Qed.

Lemma challenge_published sg : published sg (challenge_config sg).
Proof.
  split; [|split].
  - intros m lo hi n H. repeat (destruct H as [H|H]; [injection H as <- <- <- <-; split; reflexivity|]). destruct H.
  - intros m H. repeat (destruct H as [<-|H]; [split; reflexivity|]). destruct H.
  - intros m. destruct sg, m; cbn; split; try discriminate;
      first [intros _; split; [reflexivity|discriminate] | intros [H K]; first [reflexivity | discriminate H | exfalso; apply K; reflexivity]].
Qed.
