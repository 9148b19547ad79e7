(** Proofs about the aggregation of the sim agents metrics. *)
From Coq Require Import QArith Qfield Lqa Permutation Setoid.
From Verif Require Import Base ResultLib MonadLib MetametricModel MetametricSpec.
Open Scope Q_scope.

(** * NaN-propagating sums *)

Lemma fold_nplus_None l : fold_left nplus l None = None.
Proof. induction l as [|a l IH]; [reflexivity|exact IH]. Qed.

Lemma fold_nplus_some l : forall acc qs, Forall2 is_number l qs ->
  is_number (fold_left nplus l (Some acc)) (acc + total qs).
Proof.
  induction l as [|a l IH]; intros acc qs H; inversion H as [|? q ? qs' Ha Hl]; subst; cbn [fold_left total fold_right].
  - exists acc. split; [reflexivity|ring].
  - destruct Ha as (x & -> & E). cbn [nplus]. destruct (IH (acc + x) qs' Hl) as (y & Ey & Hy).
    exists y. split; [exact Ey|]. rewrite Hy, E. unfold total. ring.
Qed.

Lemma nsum_some l qs : Forall2 is_number l qs -> is_number (nsum l) (total qs).
Proof.
  intros H. destruct (fold_nplus_some l 0 qs H) as (y & E & Hy). exists y. split; [exact E|]. rewrite Hy. ring.
Qed.

Lemma nsum_inv l : forall acc x, fold_left nplus l acc = Some x ->
  (exists a, acc = Some a) /\ exists qs, l = map Some qs.
Proof.
  induction l as [|a l IH]; intros acc x H; cbn [fold_left] in H.
  - split; [eauto|exists []; reflexivity].
  - destruct (IH _ _ H) as ((s & Es) & (qs & ->)). destruct acc as [y|], a as [z|]; try discriminate.
    split; [eauto|]. exists (z :: qs). reflexivity.
Qed.

Lemma map_some_numbers qs : Forall2 is_number (map Some qs) qs.
Proof. induction qs as [|q qs IH]; constructor; [|exact IH]. exists q. split; reflexivity. Qed.

(** ** Weighted sums *)

Definition weighted (w : weights) (m : message) (fs : list metric) (acc : option Q) : option Q :=
  fold_left (fun acc f => nplus acc (nscale (w f) (get m (Likelihood f)))) fs acc.

Lemma weighted_map w m fs : forall acc,
  weighted w m fs acc = fold_left nplus (map (fun f => nscale (w f) (get m (Likelihood f))) fs) acc.
Proof. induction fs as [|f fs IH]; intros acc; [reflexivity|]. cbn [map fold_left weighted]. apply IH. Qed.

Lemma weighted_value w m s fs : scores m s ->
  is_number (weighted w m fs (Some 0)) (total (map (fun f => w f * s f) fs)).
Proof.
  intros H. rewrite weighted_map. apply nsum_some. induction fs as [|f fs IH]; cbn [map]; constructor; [|exact IH].
  destruct (H f) as (x & -> & E). exists (w f * x). split; [reflexivity|]. rewrite E. reflexivity.
Qed.

Lemma weights_sum_value (w : weights) fs : forall acc, fold_left (fun acc f => acc + w f) fs acc == acc + total (map w fs).
Proof.
  induction fs as [|f fs IH]; intros acc; cbn [fold_left map total fold_right]; [ring|]. rewrite IH. unfold total. ring.
Qed.

Lemma metametric_value w m s : scores m s ->
  is_number (compute_metametric w m) (total (map (fun f => w f * s f) metric_names)).
Proof. apply weighted_value. Qed.

(** A weighted average stays between any bounds of its values. *)
Lemma weighted_bounds (w s : metric -> Q) lo hi fs : (forall f, In f fs -> 0 <= w f) ->
  (forall f, In f fs -> lo <= s f <= hi) ->
  lo * total (map w fs) <= total (map (fun f => w f * s f) fs) <= hi * total (map w fs).
Proof.
  induction fs as [|f fs IH]; intros Hw Hs; cbn [map total fold_right]; [lra|].
  destruct IH as (A & B); [intros g Hg; apply Hw; cbn; auto|intros g Hg; apply Hs; cbn; auto|].
  assert (0 <= w f) as W by (apply Hw; cbn; auto). destruct (Hs f) as (C & D); [cbn; auto|].
  unfold total in *.
  assert (0 <= w f * (s f - lo)) by (apply Qmult_le_0_compat; lra).
  assert (0 <= w f * (hi - s f)) by (apply Qmult_le_0_compat; lra). lra.
Qed.

Lemma metametric_bounds w m s lo hi : scores m s ->
  (forall f, 0 <= w f) -> total (map w metric_names) == 1 -> (forall f, lo <= s f <= hi) ->
  exists x, compute_metametric w m = Some x /\ lo <= x <= hi.
Proof.
  intros H Hw Hs Hb. destruct (metametric_value w m s H) as (x & E & Hx). exists x. split; [exact E|].
  destruct (weighted_bounds w s lo hi metric_names) as (A & B); auto. rewrite Hs in A, B. rewrite Hx. lra.
Qed.

Lemma scores_exist m : (forall f, exists x, get m (Likelihood f) = Some x) -> exists s, scores m s.
Proof.
  intros H. exists (fun f => match get m (Likelihood f) with Some x => x | None => 0 end). intros f.
  destruct (H f) as (x & ->). exists x. split; reflexivity.
Qed.

(** NaN exactly when one of the scores is NaN. *)
Lemma weighted_nan w m fs :
  weighted w m fs (Some 0) = None <-> exists f, In f fs /\ get m (Likelihood f) = None.
Proof.
  rewrite weighted_map. split.
  - intros H.
    assert (forall l acc, fold_left nplus l (Some acc) = None -> In None l) as K.
    { induction l as [|a l IH]; intros acc E; [discriminate|]. destruct a as [x|]; [|cbn; auto].
      right. eapply IH. exact E. }
    apply K in H. apply in_map_iff in H. destruct H as (f & E & I). exists f. split; [exact I|].
    destruct (get m (Likelihood f)); [discriminate|reflexivity].
  - intros (f & I & E).
    assert (forall l acc, In None l -> fold_left nplus l acc = None) as K.
    { induction l as [|a l IH]; intros acc Hin; [contradiction|]. destruct Hin as [->|Hi]; cbn [fold_left].
      - destruct acc; apply fold_nplus_None.
      - apply IH. exact Hi. }
    apply K. apply in_map_iff. exists f. rewrite E. auto.
Qed.

(** * Buckets *)

Lemma bucket_error w m fs : (bucket w m fs = Err ValueError <-> total (map w fs) == 0) /\
  (forall e, bucket w m fs = Err e -> e = ValueError).
Proof.
  unfold bucket. pose proof (weights_sum_value w fs 0) as E.
  set (t := fold_left _ _ 0) in *.
  assert (total (map w fs) == t) as Et by (rewrite E; ring). rewrite Et. cbn zeta.
  destruct (Qeq_bool t 0) eqn:Z.
  - apply Qeq_bool_iff in Z. split; [split; auto|]. congruence.
  - apply Qeq_bool_neq in Z. split; [split; [discriminate|contradiction]|discriminate].
Qed.

Lemma bucket_value w m fs s : scores m s -> ~ total (map w fs) == 0 ->
  exists x, bucket w m fs = Ok (Some x) /\ x * total (map w fs) == total (map (fun f => w f * s f) fs).
Proof.
  intros H D. unfold bucket. pose proof (weights_sum_value w fs 0) as E. set (t := fold_left _ _ 0) in *.
  assert (total (map w fs) == t) as Et by (rewrite E; ring). rewrite Et in D. setoid_rewrite Et.
  destruct (Qeq_bool t 0) eqn:Z; [apply Qeq_bool_iff in Z; contradiction|].
  destruct (weighted_value w m s fs H) as (y & Ey & Hy). unfold weighted in Ey. rewrite Ey. cbn [ndiv].
  rewrite Z. exists (y / t). split; [reflexivity|]. transitivity y; [|exact Hy]. field. exact D.
Qed.

Lemma buckets_value w m s : scores m s ->
  (forall f, 0 <= w f) ->
  total (map w metric_names) == 1 ->
  forall b, aggregate_metrics_to_buckets w m = Ok b ->
  exists k i p, kinematic_metrics b = Some k /\ interactive_metrics b = Some i /\ map_based_metrics b = Some p /\
    k * total (map w kinematic) == total (map (fun f => w f * s f) kinematic) /\
    i * total (map w interactive) == total (map (fun f => w f * s f) interactive) /\
    p * total (map w map_based) == total (map (fun f => w f * s f) map_based) /\
    is_number (compute_metametric w m)
      (k * total (map w kinematic) + i * total (map w interactive) + p * total (map w map_based)) /\
    realism_meta_metric b = get m Metametric /\ min_ade b = get m MinAde /\
    b_collision_rate b = get m CollisionRate /\ b_offroad_rate b = get m OffroadRate /\
    b_traffic_light_rate b = get m TrafficLightRate.
Proof.
  intros H Hw H1 b Hb. unfold aggregate_metrics_to_buckets in Hb.
  dbind Hb k Ek. dbind Hb i Ei. dbind Hb p Ep. apply Ok_inj in Hb. subst b. cbn [kinematic_metrics interactive_metrics
    map_based_metrics realism_meta_metric min_ade b_collision_rate b_offroad_rate b_traffic_light_rate].
  assert (forall fs v, bucket w m fs = Ok v -> exists x, v = Some x /\
            x * total (map w fs) == total (map (fun f => w f * s f) fs)) as B.
  { intros fs v Ev. destruct (Qeq_dec (total (map w fs)) 0) as [Z|Z].
    - apply (proj1 (bucket_error w m fs)) in Z. congruence.
    - destruct (bucket_value w m fs s H Z) as (x & Ex & Hx). rewrite Ex in Ev. apply Ok_inj in Ev. subst v. eauto. }
  destruct (B _ _ Ek) as (x & -> & Hx). destruct (B _ _ Ei) as (y & -> & Hy). destruct (B _ _ Ep) as (z & -> & Hz).
  exists x, y, z. repeat (split; [first [reflexivity|assumption]|]). split; [|repeat split].
  destruct (metametric_value w m s H) as (v & Ev & Hv). exists v. split; [exact Ev|]. rewrite Hv, Hx, Hy, Hz.
  unfold metric_names. rewrite !map_app. unfold total. rewrite !fold_right_app.
  generalize (map (fun f => w f * s f) kinematic) (map (fun f => w f * s f) interactive)
             (map (fun f => w f * s f) map_based). intros l1 l2 l3.
  assert (forall l a, fold_right Qplus a l == fold_right Qplus 0 l + a) as F.
  { induction l as [|q l IH]; intros a; cbn [fold_right]; [ring|]. rewrite IH. ring. }
  rewrite (F l1), (F l2). ring.
Qed.

Lemma bucket_bounds w m s fs lo hi x : scores m s -> (forall f, In f fs -> 0 <= w f) ->
  (forall f, In f fs -> lo <= s f <= hi) -> bucket w m fs = Ok (Some x) -> lo <= x <= hi.
Proof.
  intros H Hw Hs E. destruct (Qeq_dec (total (map w fs)) 0) as [Z|Z].
  { apply (proj1 (bucket_error w m fs)) in Z. congruence. }
  destruct (bucket_value w m fs s H Z) as (y & Ey & Hy). rewrite Ey in E. apply Ok_inj in E. injection E as ->.
  destruct (weighted_bounds w s lo hi fs Hw Hs) as (A & B).
  assert (0 <= total (map w fs)) as P.
  { clear -Hw. induction fs as [|f fs IH]; cbn [map total fold_right]; [lra|].
    assert (0 <= w f) by (apply Hw; cbn; auto).
    assert (0 <= total (map w fs)) by (apply IH; intros g Hg; apply Hw; cbn; auto). unfold total in *. lra. }
  assert (0 < total (map w fs)) as P'.
  { destruct (Qlt_le_dec 0 (total (map w fs))) as [L|L]; [exact L|]. exfalso. apply Z. lra. }
  rewrite <- Hy in A, B. split; apply (Qmult_le_r _ _ _ P'); lra.
Qed.

(** * Means *)

Lemma qlen_pos {A} (l : list A) : l <> [] -> 0 < qlen l.
Proof.
  intros H. unfold qlen. change 0 with (inject_Z 0). rewrite <- Zlt_Qlt. destruct l; [contradiction|]. cbn [length]. lia.
Qed.

Lemma ndiv_some a b q : ~ b == 0 -> is_number a q -> is_number (ndiv a b) (q / b).
Proof.
  intros D (x & -> & E). cbn [ndiv]. destruct (Qeq_bool b 0) eqn:Z; [apply Qeq_bool_iff in Z; contradiction|].
  exists (x / b). split; [reflexivity|]. rewrite E. reflexivity.
Qed.

Lemma mean_value l qs : Forall2 is_number l qs -> l <> [] -> exists a, mean l = Some a /\ is_mean qs a.
Proof.
  intros H D. assert (length l = length qs) as L by (clear -H; induction H; cbn [length]; congruence).
  pose proof (qlen_pos l D) as P. destruct (ndiv_some (nsum l) (qlen l) (total qs)) as (a & E & Ha).
  - lra.
  - apply nsum_some. exact H.
  - exists a. split; [exact E|]. split.
    + intros ->. destruct l; [contradiction|discriminate].
    + rewrite <- L. fold (qlen l). rewrite Ha. field. lra.
Qed.

Lemma is_mean_unique l a b : is_mean l a -> is_mean l b -> a == b.
Proof.
  intros (D & A) (_ & B). pose proof (qlen_pos l D) as P. unfold qlen in P.
  apply (Qmult_inj_r a b (inject_Z (Z.of_nat (length l)))); lra.
Qed.

Lemma is_mean_bounds l a lo hi : is_mean l a -> (forall x, In x l -> lo <= x <= hi) -> lo <= a <= hi.
Proof.
  intros (D & A) H. pose proof (qlen_pos l D) as P. unfold qlen in P.
  assert (lo * inject_Z (Z.of_nat (length l)) <= total l <= hi * inject_Z (Z.of_nat (length l))) as B.
  { clear -H. induction l as [|x l IH]; [cbn [length Z.of_nat total fold_right]; change (inject_Z 0) with 0; lra|].
    cbn [length total fold_right].
    rewrite Nat2Z.inj_succ, <- Z.add_1_r, inject_Z_plus. change (inject_Z 1) with 1.
    assert (lo <= x <= hi) by (apply H; cbn; auto).
    destruct IH as (E & F); [intros y Hy; apply H; cbn; auto|]. unfold total in *. lra. }
  rewrite <- A in B. split; apply (Qmult_le_r _ _ _ P); lra.
Qed.

(** * Averages with validity *)

Lemma select_exists {A} : forall (l : list A) v, length l = length v -> exists r, selected l v r.
Proof.
  induction l as [|x l IH]; intros [|b v] L; try discriminate; [exists []; constructor|].
  destruct (IH v) as (r & H); [cbn in L; lia|]. destruct b; eexists; constructor; exact H.
Qed.

Lemma selected_length {A} (l : list A) v r : selected l v r -> length l = length v /\
  length r = length (filter (fun b : bool => b) v).
Proof. induction 1 as [|x l v r H (A1 & A2)|x l v r H (A1 & A2)]; cbn [filter length]; split; congruence. Qed.

Lemma masked_sum l v r : selected l v r -> forall acc,
  fold_left nplus (map (fun p : option Q * bool => if snd p then fst p else Some 0) (combine l v)) acc = None <->
  fold_left nplus r acc = None.
Proof.
  induction 1 as [|x l v r H IH|x l v r H IH]; intros acc; cbn [combine map fold_left fst snd].
  - tauto.
  - apply IH.
  - rewrite IH.
    assert (forall r a b, (a = None <-> b = None) -> (fold_left nplus r a = None <-> fold_left nplus r b = None)) as K.
    { clear. induction r as [|y r IH]; intros a b E; [exact E|]. cbn [fold_left]. apply IH.
      destruct a, b, y; cbn; intuition discriminate. }
    apply K. destruct acc; cbn; intuition discriminate.
Qed.

Lemma masked_value l v r qs : selected l v r -> Forall2 is_number r qs -> forall acc,
  is_number (fold_left nplus (map (fun p : option Q * bool => if snd p then fst p else Some 0) (combine l v)) (Some acc))
            (acc + total qs).
Proof.
  intros H. revert qs. induction H as [|x l v r H IH|x l v r H IH]; intros qs HF acc; cbn [combine map fold_left fst snd].
  - inversion HF; subst. exists acc. split; [reflexivity|]. cbn. ring.
  - inversion HF as [|? q ? qs' Hx Hq]; subst. destruct Hx as (y & -> & E). cbn [nplus].
    destruct (IH qs' Hq (acc + y)) as (z & Ez & Hz). exists z. split; [exact Ez|]. rewrite Hz, E.
    unfold total. cbn [fold_right]. ring.
  - cbn [nplus]. destruct (IH qs HF (acc + 0)) as (z & Ez & Hz). exists z. split; [exact Ez|]. rewrite Hz. ring.
Qed.

Lemma reduce_average_spec l v :
  (length l <> length v -> reduce_average_with_validity l v = Err ValueError) /\
  (length l = length v -> exists r a, selected l v r /\ reduce_average_with_validity l v = Ok a /\
     (a = None <-> r = [] \/ In None r) /\
     (forall qs, Forall2 is_number r qs -> r <> [] -> exists x, a = Some x /\ is_mean qs x)).
Proof.
  unfold reduce_average_with_validity. split; intros L.
  - apply Nat.eqb_neq in L. rewrite L. reflexivity.
  - rewrite L, Nat.eqb_refl. cbn [negb]. destruct (select_exists l v L) as (r & H).
    destruct (selected_length _ _ _ H) as (_ & Lr). eexists r, _. split; [exact H|]. split; [reflexivity|].
    assert (qlen (filter (fun b : bool => b) v) = qlen r) as -> by (unfold qlen; rewrite Lr; reflexivity).
    unfold nsum. pose proof (masked_sum l v r H (Some 0)) as M. pose proof (masked_value l v r) as V.
    set (cs := fold_left nplus _ (Some 0)) in *. split.
    + assert (fold_left nplus r (Some 0) = None <-> In None r) as K.
      { clear. generalize 0. induction r as [|a r IH]; intros q; [cbn; split; [discriminate|contradiction]|].
        cbn [fold_left In]. destruct a as [x|].
        - cbn [nplus]. rewrite IH. split; [auto|]. intros [E|E]; [discriminate|exact E].
        - cbn [nplus]. rewrite fold_nplus_None. tauto. }
      destruct r as [|a r].
      * split; [auto|]. intros _. destruct cs as [x|]; reflexivity.
      * assert (0 < qlen (a :: r)) as P by (apply qlen_pos; discriminate).
        destruct cs as [x|]; cbn [ndiv].
        -- destruct (Qeq_bool _ 0) eqn:Z; [apply Qeq_bool_iff in Z; lra|]. split; [discriminate|].
           intros [E|E]; [discriminate|]. apply K in E. apply M in E. discriminate.
        -- split; [|auto]. intros _. right. apply K, M. reflexivity.
    + intros qs HF D. destruct (V qs H HF 0) as (x & Ex & Hx). fold cs in Ex. rewrite Ex.
      pose proof (qlen_pos r D) as P.
      assert (length r = length qs) as Lq by (clear -HF; induction HF; cbn [length]; congruence).
      cbn [ndiv]. destruct (Qeq_bool _ 0) eqn:Z; [apply Qeq_bool_iff in Z; lra|].
      eexists. split; [reflexivity|]. split; [destruct qs, r; try discriminate; contradiction|].
      unfold qlen in *. rewrite Lq in *. rewrite Hx. field. lra.
Qed.

(** * Aggregation over scenarios *)

Lemma aggregate_errors all :
  (aggregate_scenario_metrics all = Err IndexError <-> all = []) /\
  (aggregate_scenario_metrics all = Err KeyError <-> exists m l, all = m :: l /\ scenario_id m = None) /\
  (forall e, aggregate_scenario_metrics all = Err e -> e = IndexError \/ e = KeyError).
Proof.
  unfold aggregate_scenario_metrics. destruct all as [|m l].
  - repeat split; try discriminate; auto.
    + intros (m & l & E & _). discriminate.
    + intros e E. injection E as <-. auto.
  - destruct (scenario_id m) as [z|] eqn:S.
    + repeat split; try discriminate. intros (m' & l' & E & S'). injection E as -> ->. congruence.
    + repeat split; try discriminate; eauto. intros e E. injection E as <-. auto.
Qed.

Lemma aggregate_value m0 l z : scenario_id m0 = Some z ->
  exists r, aggregate_scenario_metrics (m0 :: l) = Ok r /\ scenario_id r = None /\
    forall f, (field_of m0 f = None -> field_of r f = None) /\
      (field_of m0 f <> None -> exists v, field_of r f = Some v /\
         forall qs, Forall2 (fun m q => is_number (get m f) q) (m0 :: l) qs ->
           exists a, v = Some a /\ is_mean qs a).
Proof.
  intros S. unfold aggregate_scenario_metrics. rewrite S. eexists. split; [reflexivity|]. split; [reflexivity|].
  intros f. cbn [field_of]. unfold is_set. destruct (field_of m0 f) as [v|]; split; intros H; try congruence; try reflexivity.
  eexists. split; [reflexivity|]. intros qs HF.
  apply (mean_value (map (fun m => get m f) (m0 :: l)) qs).
  - clear -HF. induction HF; cbn [map]; constructor; assumption.
  - discriminate.
Qed.

Lemma nsum_perm l l' : Permutation l l' -> forall x, nsum l = Some x -> exists y, nsum l' = Some y /\ x == y.
Proof.
  intros P x H. destruct (nsum_inv _ _ _ H) as (_ & qs & ->).
  apply Permutation_sym, Permutation_map_inv in P. destruct P as (qs' & -> & P).
  destruct (nsum_some _ _ (map_some_numbers qs)) as (x' & Ex & Hx).
  destruct (nsum_some _ _ (map_some_numbers qs')) as (y' & Ey & Hy).
  assert (total qs == total qs') as T.
  { clear -P. induction P as [|a l l' P IH|a b l|l1 l2 l3 P1 IH1 P2 IH2]; unfold total in *; cbn [fold_right].
    - reflexivity.
    - rewrite IH. reflexivity.
    - ring.
    - rewrite IH1. exact IH2. }
  exists y'. split; [exact Ey|]. unfold nsum in *. rewrite Ex in H. injection H as <-. rewrite Hx, Hy. exact T.
Qed.

(** The metametric of the averages is the average of the metametrics. *)
Lemma total_plus {A} (f g : A -> Q) l : total (map (fun a => f a + g a) l) == total (map f l) + total (map g l).
Proof. induction l as [|a l IH]; unfold total in *; cbn [map fold_right]; [ring|]. rewrite IH. ring. Qed.

Lemma total_scale {A} (c : Q) (f : A -> Q) l : total (map (fun a => c * f a) l) == c * total (map f l).
Proof. induction l as [|a l IH]; unfold total in *; cbn [map fold_right]; [ring|]. rewrite IH. ring. Qed.

Lemma total_ext {A} (f g : A -> Q) l : (forall a, In a l -> f a == g a) -> total (map f l) == total (map g l).
Proof.
  induction l as [|a l IH]; intros H; unfold total in *; cbn [map fold_right]; [reflexivity|].
  rewrite (H a), IH; [reflexivity| |cbn; auto]. intros b Hb. apply H. cbn. auto.
Qed.

Lemma total_swap {A B} (f : A -> B -> Q) la lb :
  total (map (fun a => total (map (f a) lb)) la) == total (map (fun b => total (map (fun a => f a b) la)) lb).
Proof.
  induction la as [|a la IH].
  - cbn [map total fold_right]. symmetry. induction lb as [|b lb IHb]; unfold total in *; cbn [map fold_right]; [reflexivity|].
    rewrite IHb. ring.
  - rewrite (total_ext (fun b => total (map (fun a0 => f a0 b) (a :: la)))
               (fun b => f a b + total (map (fun a0 => f a0 b) la))).
    + rewrite total_plus, <- IH. unfold total. cbn [map fold_right]. reflexivity.
    + intros b _. reflexivity.
Qed.

Definition num (a : option Q) : Q := match a with Some x => x | None => 0 end.

Lemma metametric_linear w all r : all <> [] ->
  (forall m, In m all -> forall f, field_of m f <> None /\ exists q, get m f = Some q) ->
  (forall m, In m all -> exists a b, get m Metametric = Some a /\ compute_metametric w m = Some b /\ a == b) ->
  aggregate_scenario_metrics all = Ok r ->
  exists a b, get r Metametric = Some a /\ compute_metametric w r = Some b /\ a == b.
Proof.
  intros D Hset Hmm Hok. destruct all as [|m0 l]; [contradiction|].
  destruct (scenario_id m0) as [z|] eqn:S; [|unfold aggregate_scenario_metrics in Hok; rewrite S in Hok; discriminate].
  destruct (aggregate_value m0 l z S) as (r' & E & _ & V). rewrite E in Hok. apply Ok_inj in Hok. subst r'.
  set (ms := m0 :: l) in *.
  assert (forall f, exists a, get r f = Some a /\ a * qlen ms == total (map (fun m => num (get m f)) ms)) as G.
  { intros f. destruct (V f) as (_ & Vf). destruct (Hset m0 (or_introl eq_refl) f) as (N & _).
    destruct (Vf N) as (v & Ev & Hv). destruct (Hv (map (fun m => num (get m f)) ms)) as (a & -> & (_ & Ha)).
    - assert (forall l, (forall m, In m l -> In m ms) ->
        Forall2 (fun m q => is_number (get m f) q) l (map (fun m => num (get m f)) l)) as K.
      { induction l0 as [|m l0 IH]; intros H; cbn [map]; constructor.
        - destruct (Hset m) with (f := f) as (_ & q & ->); [apply H; cbn; auto|]. exists q. split; reflexivity.
        - apply IH. intros m' Hm'. apply H. cbn. auto. }
      apply K. auto.
    - exists a. unfold get. rewrite Ev. split; [reflexivity|]. rewrite map_length in Ha. exact Ha. }
  pose (s := fun f => num (get r (Likelihood f))).
  assert (scores r s) as Sr.
  { intros f. destruct (G (Likelihood f)) as (a & Ea & _). unfold s. rewrite Ea. exists a. split; reflexivity. }
  destruct (metametric_value w r s Sr) as (b & Eb & Hb). destruct (G Metametric) as (a & Ea & Ha).
  exists a, b. split; [exact Ea|]. split; [exact Eb|].
  pose proof (qlen_pos ms) as P. assert (0 < qlen ms) as P' by (apply P; discriminate). clear P.
  apply (Qmult_inj_r a b (qlen ms)); [lra|]. rewrite Ha, Hb.
  transitivity (total (map (fun m => total (map (fun f => w f * num (get m (Likelihood f))) metric_names)) ms)).
  - apply total_ext. intros m Hm. destruct (Hmm m Hm) as (a' & b' & E1 & E2 & E3). rewrite E1. cbn [num]. rewrite E3.
    destruct (metametric_value w m (fun f => num (get m (Likelihood f)))) as (c & Ec & Hc).
    + intros f. destruct (Hset m Hm (Likelihood f)) as (_ & q & ->). exists q. split; reflexivity.
    + rewrite E2 in Ec. injection Ec as <-. exact Hc.
  - rewrite total_swap.
    transitivity (total (map (fun f => qlen ms * (w f * s f)) metric_names)).
    + apply total_ext. intros f _. rewrite total_scale. destruct (G (Likelihood f)) as (c & Ec & Hc). unfold s.
      rewrite Ec. cbn [num]. rewrite <- Hc. ring.
    + rewrite total_scale. ring.
Qed.

(** * Rates *)

Lemma nth_error_combine {A B} (l : list A) : forall (l' : list B) i,
  nth_error (combine l l') i =
  match nth_error l i, nth_error l' i with Some a, Some b => Some (a, b) | _, _ => None end.
Proof.
  induction l as [|a l IH]; intros [|b l'] [|i]; cbn [combine nth_error]; try reflexivity.
  - destruct (nth_error l i); reflexivity.
  - apply IH.
Qed.

Lemma existsb_nth {A} (p : A -> bool) l : existsb p l = true <-> exists i a, nth_error l i = Some a /\ p a = true.
Proof.
  rewrite existsb_exists. split.
  - intros (a & I & H). apply In_nth_error in I. destruct I as (i & E). eauto.
  - intros (i & a & E & H). apply nth_error_In in E. eauto.
Qed.

Lemma indication_spec valid per_step : rectangular valid per_step ->
  length (indication valid per_step) = length per_step /\
  (forall row, In row (indication valid per_step) -> length row = length valid) /\
  forall r o, (r < length per_step)%nat -> (o < length valid)%nat ->
    exists row b, nth_error (indication valid per_step) r = Some row /\ nth_error row o = Some b /\
                  (b = true <-> flagged valid per_step r o).
Proof.
  intros R. unfold indication. split; [apply map_length|]. split.
  - intros row I. apply in_map_iff in I. destruct I as (rollout & <- & I). rewrite map_length, combine_length, (R _ I).
    apply Nat.min_id.
  - intros r o Hr Ho. destruct (nth_error per_step r) as [rollout|] eqn:Er; [|apply nth_error_None in Er; lia].
    pose proof (R _ (nth_error_In _ _ Er)) as L.
    destruct (nth_error rollout o) as [row|] eqn:Eo; [|apply nth_error_None in Eo; lia].
    destruct (nth_error valid o) as [vrow|] eqn:Ev; [|apply nth_error_None in Ev; lia].
    eexists _, _. rewrite nth_error_map', Er. split; [reflexivity|]. rewrite nth_error_map', nth_error_combine, Eo, Ev.
    split; [reflexivity|]. cbn [fst snd]. rewrite existsb_nth. unfold flagged. split.
    + intros (t & (a & b) & E & H). rewrite nth_error_combine in E. cbn [fst snd] in H. apply andb_prop in H.
      destruct H as (-> & ->). destruct (nth_error vrow t) as [x|] eqn:Ex; [|discriminate].
      destruct (nth_error row t) as [y|] eqn:Ey; [|discriminate]. injection E as -> ->.
      exists t, rollout, row, vrow. auto.
    + intros (t & rollout' & row' & vrow' & E1 & E2 & E3 & E4 & E5).
      rewrite Er in E1. injection E1 as <-. rewrite Eo in E2. injection E2 as <-. rewrite Ev in E3. injection E3 as <-.
      exists t, (true, true). rewrite nth_error_combine, E4, E5. auto.
Qed.

Lemma rate_value ind : concat ind <> [] ->
  exists x, rate ind = Some x /\
    x * inject_Z (Z.of_nat (length (concat ind))) ==
      inject_Z (Z.of_nat (length (filter (fun b : bool => b) (concat ind)))) /\ 0 <= x <= 1.
Proof.
  intros D. pose proof (qlen_pos _ D) as P. unfold rate, ndiv.
  destruct (Qeq_bool _ 0) eqn:Z; [apply Qeq_bool_iff in Z; lra|].
  eexists. split; [reflexivity|]. unfold qlen in *.
  set (n := inject_Z (Z.of_nat (length (concat ind)))) in *.
  set (k := inject_Z (Z.of_nat (length (filter _ (concat ind))))).
  assert (0 <= k) as K0 by (unfold k; change 0 with (inject_Z 0); rewrite <- Zle_Qle; lia).
  assert (k <= n) as K1.
  { unfold k, n. rewrite <- Zle_Qle.
    assert (forall l, (length (filter (fun b : bool => b) l) <= length l)%nat) as F.
    { induction l as [|b l IH]; [cbn; lia|]. cbn [filter]. destruct b; cbn [length]; lia. }
    specialize (F (concat ind)). lia. }
  split; [field; lra|]. split.
  - apply Qle_shift_div_l; [exact P|]. lra.
  - apply Qle_shift_div_r; [exact P|]. lra.
Qed.

(** * The whole message *)

Lemma mapM_pairs (g : metric -> result (option Q)) : forall l values,
  mapM (fun m => do v <- g m; Ok (m, v)) l = Ok values ->
  forall m, In m l -> exists v, g m = Ok v /\
    find (fun p => if metric_eq_dec m (fst p) then true else false) values = Some (m, v).
Proof.
  induction l as [|a l IH]; intros values H m Hm; [contradiction|]. cbn [mapM] in H.
  dbind H p Ep. dbind H vs Evs. apply Ok_inj in H. subst values. dbind Ep v Ev. apply Ok_inj in Ep. subst p.
  cbn [find fst]. destruct (metric_eq_dec m a) as [->|D].
  - exists v. auto.
  - destruct Hm as [->|Hm]; [contradiction|]. apply (IH vs Evs m Hm).
Qed.

Lemma in_names m : In m metric_names.
Proof. destruct m; cbn; tauto. Qed.

Lemma scenario_message exp w id b r : compute_scenario_metrics exp w id b = Ok r ->
  scenario_id r = Some id /\
  (forall m, exists v, feature_likelihood exp b m = Ok v /\ field_of r (Likelihood m) = Some v) /\
  field_of r Metametric = Some (compute_metametric w r) /\
  field_of r Ade = Some (mean (concat (ade b))) /\
  field_of r MinAde = Some (minimum (map mean (ade b))) /\
  field_of r CollisionRate = Some (rate (indication (log_valid b) (sim_collision b))) /\
  field_of r OffroadRate = Some (rate (indication (log_valid b) (sim_offroad b))) /\
  field_of r TrafficLightRate = Some (rate (indication (log_valid b) (sim_traffic_light b))).
Proof.
  unfold compute_scenario_metrics. intros H. dbind H values E. apply Ok_inj in H. subst r.
  cbn [scenario_id field_of]. split; [reflexivity|]. split.
  - intros m. destruct (mapM_pairs _ _ _ E m (in_names m)) as (v & Ev & Ef). exists v. rewrite Ef. auto.
  - split; [|repeat split; reflexivity]. f_equal.
Qed.

Lemma nexp_unit exp a : (forall x, x <= 0 -> 0 <= exp x <= 1) -> (exists x, a = Some x /\ x <= 0) -> in_unit (nexp exp a).
Proof. intros H (x & -> & L). exists (exp x). split; [reflexivity|]. apply H. exact L. Qed.

(** Every score of a scenario is in [0, 1], and so is the metametric. *)
Lemma scenario_in_unit exp w id b r :
  (forall x, x <= 0 -> 0 <= exp x <= 1) ->
  (forall f, 0 <= w f) -> total (map w metric_names) == 1 ->
  (forall m v, mask_of b m = Some v -> length (log_likelihood b m) = length v /\
     (exists i, nth_error v i = Some true) /\
     forall i, nth_error v i = Some true -> exists q, nth_error (log_likelihood b m) i = Some (Some q) /\ q <= 0) ->
  (forall m, mask_of b m = None -> log_likelihood b m <> [] /\
     forall x, In x (log_likelihood b m) -> exists q, x = Some q /\ q <= 0) ->
  compute_scenario_metrics exp w id b = Ok r ->
  (forall m, in_unit (get r (Likelihood m))) /\ in_unit (get r Metametric).
Proof.
  intros He Hw H1 Hm Hn Hok. destruct (scenario_message exp w id b r Hok) as (_ & L & M & _).
  assert (forall l qs, Forall2 is_number l qs -> (forall x, In x l -> exists q, x = Some q /\ q <= 0) ->
            forall q, In q qs -> q <= 0) as Neg.
  { intros l qs HF. induction HF as [|x q l qs Hx HF IH]; intros Hl y Hy; [contradiction|]. destruct Hy as [<-|Hy].
    - destruct Hx as (x' & -> & E). destruct (Hl (Some x')) as (z & Ez & Lz); [cbn; auto|]. injection Ez as ->. lra.
    - apply IH; [|exact Hy]. intros z Hz. apply Hl. cbn. auto. }
  assert (forall l, (forall x, In x l -> exists q, x = Some q /\ q <= 0) -> exists qs, Forall2 is_number l qs) as Ex.
  { induction l as [|x l IH]; intros Hl; [exists []; constructor|].
    destruct (Hl x) as (q & -> & _); [cbn; auto|]. destruct IH as (qs & HF); [intros y Hy; apply Hl; cbn; auto|].
    exists (q :: qs). constructor; [exists q; split; reflexivity|exact HF]. }
  assert (forall qs a, is_mean qs a -> (forall q, In q qs -> q <= 0) -> a <= 0) as MeanNeg.
  { intros qs a (D & E) Hq. pose proof (qlen_pos qs D) as P. unfold qlen in P.
    assert (total qs <= 0) as T.
    { clear -Hq. induction qs as [|q qs IH]; unfold total in *; cbn [fold_right]; [lra|].
      assert (q <= 0) by (apply Hq; cbn; auto).
      assert (fold_right Qplus 0 qs <= 0) by (apply IH; intros y Hy; apply Hq; cbn; auto). lra. }
    destruct (Qlt_le_dec 0 a) as [A|A]; [|exact A].
    assert (0 < a * inject_Z (Z.of_nat (length qs))) by (apply Qmult_lt_0_compat; lra). lra. }
  assert (forall m, in_unit (get r (Likelihood m))) as U.
  { intros m. destruct (L m) as (v & Ev & Ef). unfold get. rewrite Ef. unfold feature_likelihood in Ev.
    destruct (mask_of b m) as [mask|] eqn:Em.
    - destruct (Hm m mask Em) as (Ll & (i & Ei) & Hsel). dbind Ev a Ea. apply Ok_inj in Ev. subst v.
      destruct (proj2 (reduce_average_spec (log_likelihood b m) mask) Ll) as (sel & a' & Hs & Ea' & _ & Hval).
      rewrite Ea in Ea'. apply Ok_inj in Ea'. subst a'.
      assert (forall x, In x sel -> exists q, x = Some q /\ q <= 0) as Hx.
      { clear -Hs Hsel. induction Hs as [|x l v r H IH|x l v r H IH]; intros y Hy; [contradiction| |].
        - destruct Hy as [<-|Hy].
          + destruct (Hsel 0%nat eq_refl) as (q & E & Lq). cbn in E. injection E as ->. eauto.
          + apply IH; [|exact Hy]. intros i Hi. apply (Hsel (S i)). exact Hi.
        - apply IH; [|exact Hy]. intros i Hi. apply (Hsel (S i)). exact Hi. }
      assert (sel <> []) as Hne.
      { intros ->. clear -Hs Ei. revert i Ei. remember [] as e eqn:Ee. induction Hs as [|x l v r H IH|x l v r H IH]; intros i Ei.
        - destruct i; discriminate.
        - discriminate.
        - destruct i as [|i]; [discriminate|]. apply (IH Ee i Ei). }
      destruct (Ex sel Hx) as (qs & HF). destruct (Hval qs HF Hne) as (x & -> & Hmean).
      apply nexp_unit; [exact He|]. exists x. split; [reflexivity|]. apply (MeanNeg qs x Hmean).
      exact (Neg sel qs HF Hx).
    - destruct (Hn m Em) as (Hne & Hx). apply Ok_inj in Ev. subst v.
      destruct (Ex _ Hx) as (qs & HF). destruct (mean_value _ qs HF Hne) as (a & -> & Hmean).
      apply nexp_unit; [exact He|]. exists a. split; [reflexivity|]. apply (MeanNeg qs a Hmean).
      exact (Neg _ qs HF Hx). }
  split; [exact U|].
  destruct (metametric_bounds w r (fun f => num (get r (Likelihood f))) 0 1) as (x & Ex' & Bx); auto.
  - intros f. destruct (U f) as (y & -> & _). exists y. split; reflexivity.
  - intros f. destruct (U f) as (y & -> & By). exact By.
  - unfold get. rewrite M, Ex'. exists x. auto.
Qed.

(** The order of the scenarios is irrelevant when all set the same fields. *)
Lemma aggregate_order all all' r r' :
  Permutation all all' ->
  (forall m m' f, In m all -> In m' all -> (field_of m f = None <-> field_of m' f = None)) ->
  (forall m f, In m all -> exists q, get m f = Some q) ->
  aggregate_scenario_metrics all = Ok r -> aggregate_scenario_metrics all' = Ok r' ->
  forall f, (field_of r f = None <-> field_of r' f = None) /\
            (field_of r f <> None -> exists a b, get r f = Some a /\ get r' f = Some b /\ a == b).
Proof.
  intros P Hs Hn Hok Hok' f. unfold aggregate_scenario_metrics in Hok, Hok'.
  destruct all as [|m l]; [discriminate|]. destruct all' as [|m' l']; [discriminate|].
  destruct (scenario_id m); [|discriminate]. destruct (scenario_id m'); [|discriminate].
  apply Ok_inj in Hok, Hok'. subst r r'. unfold get. cbn [field_of]. unfold is_set.
  assert (In m' (m :: l)) as Im' by (eapply Permutation_in; [apply Permutation_sym; exact P|cbn; auto]).
  pose proof (Hs m m' f (or_introl eq_refl) Im') as E.
  destruct (field_of m f) as [v|], (field_of m' f) as [v'|].
  - split; [split; discriminate|]. intros _.
    assert (exists qs, map (fun m => get m f) (m :: l) = map Some qs) as (qs & Eq).
    { clear -Hn. assert (forall k, (forall x, In x k -> In x (m :: l)) -> exists qs, map (fun m => get m f) k = map Some qs) as K.
      { induction k as [|x k IH]; intros H; [exists []; reflexivity|].
        destruct (Hn x f) as (q & Eq); [apply H; cbn; auto|]. destruct IH as (qs & Es); [intros y Hy; apply H; cbn; auto|].
        exists (q :: qs). cbn [map]. rewrite Eq, Es. reflexivity. }
      apply K. auto. }
    pose proof (Permutation_map (fun m => get m f) P) as PM.
    destruct (nsum_some _ _ (map_some_numbers qs)) as (x & Ex & _). rewrite <- Eq in Ex.
    destruct (nsum_perm _ _ PM x Ex) as (y & Ey & Exy). unfold get in Ex, Ey.
    pose proof (Permutation_length PM) as L. rewrite !map_length in L.
    unfold mean, ndiv, qlen. rewrite Ex, Ey, !map_length, <- L.
    assert (0 < qlen (m :: l)) as Pq by (apply qlen_pos; discriminate). unfold qlen in Pq.
    destruct (Qeq_bool (inject_Z (Z.of_nat (length (m :: l)))) 0) eqn:Z; [apply Qeq_bool_iff in Z; lra|].
    exists (x / inject_Z (Z.of_nat (length (m :: l)))), (y / inject_Z (Z.of_nat (length (m :: l)))).
    split; [reflexivity|]. split; [reflexivity|]. rewrite Exy. reflexivity.
  - exfalso. assert (Some v = None) by (apply E; reflexivity). discriminate.
  - exfalso. assert (Some v' = None) by (apply E; reflexivity). discriminate.
  - split; [tauto|]. intros C. contradiction.
Qed.

Lemma aggregate_mean_refuted : exists m1 m2 r f,
  aggregate_scenario_metrics [m1; m2] = Ok r /\ get m1 f = Some 0 /\ get m2 f = Some 1 /\ get r f = Some 0 /\
  field_of r f = None.
Proof.
  exists {| scenario_id := Some 1%Z; field_of _ := None |},
         {| scenario_id := Some 2%Z; field_of _ := Some (Some 1) |}.
  eexists _, Metametric. split; [reflexivity|]. repeat split; reflexivity.
Qed.

Lemma aggregate_order_refuted : exists m1 m2 r r' f,
  aggregate_scenario_metrics [m1; m2] = Ok r /\ aggregate_scenario_metrics [m2; m1] = Ok r' /\
  field_of r f = None /\ field_of r' f <> None.
Proof.
  exists {| scenario_id := Some 1%Z; field_of _ := None |},
         {| scenario_id := Some 2%Z; field_of _ := Some (Some 1) |}.
  eexists _, _, Metametric. split; [reflexivity|]. split; [reflexivity|]. split; [reflexivity|]. discriminate.
Qed.

(** The traffic light rate counts objects that are not vehicles, which the
    likelihood leaves out. *)
Lemma traffic_light_rate_refuted : exists b,
  (forall r o, ~ flagged (vehicle_validity (log_valid b) (log_is_vehicle b)) (sim_traffic_light b) r o) /\
  rectangular (log_valid b) (sim_traffic_light b) /\
  is_number (rate (indication (log_valid b) (sim_traffic_light b))) (1 # 2).
Proof.
  exists {| ade := []; log_likelihood _ := []; log_valid := [[true]; [true]]; speed_valid := []; accel_valid := [];
            log_is_vehicle := [true; false]; sim_collision := []; sim_offroad := [];
            sim_traffic_light := [[[false]; [true]]] |}.
  cbn [log_valid log_is_vehicle sim_traffic_light]. split; [|split].
  - intros r o (t & rollout & row & vrow & E1 & E2 & E3 & E4 & E5).
    destruct r as [|r]; [|destruct r; discriminate]. cbn in E1. injection E1 as <-.
    destruct o as [|[|o]]; cbn in E2; [| |destruct o; discriminate]; injection E2 as <-;
      cbn in E3; injection E3 as <-; destruct t as [|t]; try discriminate; destruct t; discriminate.
  - intros rollout [<-|[]]. reflexivity.
  - eexists. split; reflexivity.
Qed.

Lemma challenge_weights_ok :
  (forall f, 0 <= challenge_weights f) /\ total (map challenge_weights metric_names) == 1.
Proof.
  split; [intros f; destruct f; apply Qle_bool_iff; reflexivity|]. vm_compute. reflexivity.
Qed.
