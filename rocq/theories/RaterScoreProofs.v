(** Trust regions and scores. *)
From Coq Require Import Qminmax Qabs Lqa.
From Verif Require Import Base ResultLib MonadLib ListLib RaterModel RaterSpec RaterPadProofs.
Open Scope list_scope.
Open Scope Q_scope.

(** ** Directions *)

Definition move (nu : numerics) (from w dir : waypoint) : waypoint :=
  let d := (fst w - fst from, snd w - snd from) in if Qeq_bool (norm nu d) 0 then dir else d.

Lemma directions_length nu t : forall from dir, length (directions nu from dir t) = length t.
Proof. induction t as [|w t IH]; intros from dir; cbn [directions length]; [reflexivity|]. rewrite IH. reflexivity. Qed.
Lemma directions_succ nu t : forall from dir k w u d,
  nth_error t (S k) = Some w -> nth_error t k = Some u -> nth_error (directions nu from dir t) k = Some d ->
  nth_error (directions nu from dir t) (S k) = Some (move nu u w d).
Proof.
  induction t as [|x t IH]; intros from dir k w u d Hw Hu Hd; [discriminate|].
  cbn [directions] in *. destruct k as [|k].
  - cbn [nth_error] in *. inversion Hu; subst u. inversion Hd; subst d.
    destruct t as [|y t]; [discriminate|]. cbn [nth_error] in Hw. inversion Hw; subst y. reflexivity.
  - cbn [nth_error] in Hw, Hu, Hd |- *. exact (IH _ _ k w u d Hw Hu Hd).
Qed.
Lemma nth_error_point t k : (k < length t)%nat -> nth_error t k = Some (point t k).
Proof. intros H. apply nth_error_nth'. exact H. Qed.

Lemma directions_heading nu t : forall k, (k < length t)%nat ->
  nth_error (directions nu (0, 0) (1, 0) t) k = Some (heading_at nu t k).
Proof.
  induction k as [|k IH]; intros H.
  - destruct t as [|w t]; [cbn in H; lia|]. reflexivity.
  - rewrite (directions_succ nu t _ _ k (point t (S k)) (point t k) (heading_at nu t k)).
    + reflexivity.
    + apply nth_error_point. exact H.
    + apply nth_error_point. lia.
    + apply IH. lia.
Qed.

Lemma heading_nonzero nu t : norm_laws nu -> forall k, ~ norm nu (heading_at nu t k) == 0.
Proof.
  intros (_ & N & _). induction k as [|k IH]; cbn [heading_at]; cbv zeta.
  - destruct (Qeq_bool _ 0) eqn:E; [exact N|]. apply Qeq_bool_neq. exact E.
  - destruct (Qeq_bool _ 0) eqn:E; [exact IH|]. apply Qeq_bool_neq. exact E.
Qed.
Lemma heading_positive nu t k : norm_laws nu -> 0 < norm nu (heading_at nu t k).
Proof.
  intros N. pose proof (heading_nonzero nu t N k) as H. destruct N as (P & _ & _).
  specialize (P (heading_at nu t k)). apply Qle_lteq in P. destruct P as [P|P]; [exact P|].
  exfalso. apply H. symmetry. exact P.
Qed.

(** ** Thresholds *)

Lemma speed_scale_range v : (1 # 2) <= speed_scale v <= 1.
Proof.
  unfold speed_scale, clip. split.
  - apply Q.min_glb; [apply Q.le_max_r|discriminate].
  - apply Q.le_min_r.
Qed.
Lemma clip_below x lo hi : x <= lo -> lo <= hi -> clip x lo hi == lo.
Proof. intros H G. unfold clip. rewrite (Q.max_r _ _ H). apply Q.min_l. exact G. Qed.
Lemma clip_above x lo hi : hi <= x -> lo <= hi -> clip x lo hi == hi.
Proof. intros H G. unfold clip. apply Q.min_r. eapply Qle_trans; [exact H|]. apply Q.le_max_l. Qed.
Lemma clip_mono x y lo hi : x <= y -> clip x lo hi <= clip y lo hi.
Proof. intros H. unfold clip. apply Q.min_le_compat_r, Q.max_le_compat_r. exact H. Qed.
Lemma scale_linear v : (1 # 2) + (1 # 2) * (v - (14 # 10)) / (11 - (14 # 10)) == (1 # 2) + (v - (14 # 10)) * (5 # 96).
Proof. field. Qed.
Lemma speed_scale_low v : v <= 14 # 10 -> speed_scale v == 1 # 2.
Proof. intros H. apply clip_below; [rewrite scale_linear; lra|discriminate]. Qed.
Lemma speed_scale_high v : 11 <= v -> speed_scale v == 1.
Proof. intros H. apply clip_above; [rewrite scale_linear; lra|discriminate]. Qed.
Lemma speed_scale_mono v w : v <= w -> speed_scale v <= speed_scale w.
Proof. intros H. apply clip_mono. rewrite !scale_linear. lra. Qed.

Lemma thresholds_value m v :
  fst (thresholds m v) == speed_scale v * m /\ snd (thresholds m v) == (18 # 10) * (speed_scale v * m).
Proof. unfold thresholds, base_thresholds. cbn [fst snd]. split; ring. Qed.
Lemma thresholds_positive m v : 0 < m -> 0 < fst (thresholds m v) /\ 0 < snd (thresholds m v).
Proof.
  intros H. destruct (speed_scale_range v) as [S _]. unfold thresholds, base_thresholds. cbn [fst snd].
  assert (P : 0 < speed_scale v) by lra.
  split; apply Qmult_lt_0_compat; try exact P; apply Qmult_lt_0_compat; try exact H; reflexivity.
Qed.

(** ** Trust regions *)

Lemma Qabs_div x n : 0 < n -> Qabs (x / n) == Qabs x / n.
Proof.
  intros H. unfold Qdiv. rewrite Qabs_Qmult. rewrite (Qabs_pos (/ n)); [reflexivity|].
  apply Qlt_le_weak, Qinv_lt_0_compat. exact H.
Qed.
Lemma div_le_one x m : 0 < m -> (x / m <= 1 <-> x <= m).
Proof.
  intros H. split; intros G.
  - assert (E : x == x / m * m) by (field; lra). rewrite E.
    apply Qle_trans with (1 * m); [apply Qmult_le_compat_r; [exact G|lra]|lra].
  - apply Qle_shift_div_r; [exact H|]. rewrite Qmult_1_l. exact G.
Qed.

Lemma lng_value nu d v : 0 < norm nu d ->
  lng_distance nu d v == Qabs (fst d * fst v + snd d * snd v) / norm nu d.
Proof.
  intros H. unfold lng_distance. cbv zeta. rewrite <- (Qabs_div _ _ H). apply Qabs_wd. field. lra.
Qed.
Lemma lat_value nu d v : norm_laws nu -> 0 < norm nu d ->
  lat_distance nu d v == Qabs (fst d * snd v - snd d * fst v) / norm nu d.
Proof.
  intros (_ & _ & R) H. unfold lat_distance. cbv zeta. cbn [fst snd]. rewrite (R d).
  rewrite <- (Qabs_div _ _ H). apply Qabs_wd. field. lra.
Qed.

Lemma normalized_box nu rater inference k lat lng : norm_laws nu -> 0 < lat -> 0 < lng ->
  (k < length rater)%nat -> (k < length inference)%nat ->
  exists q, normalized_distance nu rater inference k lat lng = Ok q
    /\ (q <= 1 <-> in_box nu rater inference k lat lng).
Proof.
  intros N La Ln Hr Hi. unfold normalized_distance.
  rewrite (nth_error_point rater k Hr), (nth_error_point inference k Hi), (directions_heading nu rater k Hr).
  eexists. split; [reflexivity|]. pose proof (heading_positive nu rater k N) as P.
  unfold in_box. cbv zeta. set (d := heading_at nu rater k) in *.
  rewrite Q.max_lub_iff, (lng_value _ _ _ P), (lat_value _ _ _ N P). cbn [fst snd].
  rewrite !div_le_one by assumption.
  assert (X : forall x y, x / norm nu d <= y <-> x <= y * norm nu d).
  { intros x y. split; intros G.
    - assert (E : x == x / norm nu d * norm nu d) by (field; lra). rewrite E.
      apply Qmult_le_compat_r; [exact G|lra].
    - apply Qle_shift_div_r; assumption. }
  rewrite !X. reflexivity.
Qed.

Lemma distances_region nu cfg speed rater inference : norm_laws nu -> positive_multipliers cfg ->
  long_enough cfg rater -> long_enough cfg inference ->
  exists a b, distances nu cfg speed rater inference = Ok (a, b)
    /\ (a <= 1 /\ b <= 1 <-> in_trust_region nu cfg speed rater inference).
Proof.
  intros N [M1 M2] [F1 L1] [_ L2]. unfold distances. cbv zeta.
  destruct (thresholds_positive (lat_multiplier cfg) speed M1) as [A1 A2].
  destruct (thresholds_positive (lng_multiplier cfg) speed M2) as [B1 B2].
  destruct (normalized_box nu rater inference (3 * frequency cfg - 1) _ _ N A1 B1) as (a & -> & Ha); [lia|lia|].
  destruct (normalized_box nu rater inference (5 * frequency cfg - 1) _ _ N A2 B2) as (b & -> & Hb); [lia|lia|].
  cbn [bind]. exists a, b. split; [reflexivity|]. unfold in_trust_region. rewrite Ha, Hb. reflexivity.
Qed.

(** ** Scores *)

Lemma fold_max l : forall a, (a <= fold_left Qmax l a /\ forall x, In x l -> x <= fold_left Qmax l a)
  /\ exists x, In x (a :: l) /\ fold_left Qmax l a = x.
Proof.
  induction l as [|b l IH]; intros a; cbn [fold_left].
  - split; [split; [apply Qle_refl|intros x []]|exists a; split; [left; reflexivity|reflexivity]].
  - destruct (IH (Qmax a b)) as ((A & B) & x & I & E). split; [split|].
    + eapply Qle_trans; [apply Q.le_max_l|exact A].
    + intros y [<-|J]; [|exact (B y J)]. eapply Qle_trans; [apply Q.le_max_r|exact A].
    + destruct I as [<-|I].
      * assert (X : Qmax a b = a \/ Qmax a b = b).
        { unfold Qmax, GenericMinMax.gmax. destruct (a ?= b); auto. }
        rewrite E. destruct X as [->| ->]; [exists a|exists b]; (split; [cbn; auto|reflexivity]).
      * exists x. split; [right; right; exact I|exact E].
Qed.
Lemma amax_spec l m : amax l = Ok m -> (forall x, In x l -> x <= m) /\ exists x, In x l /\ m = x.
Proof.
  destruct l as [|a l]; [discriminate|]. intros E. apply Ok_inj in E. subst m.
  destruct (fold_max l a) as ((A & B) & x & I & E). split.
  - intros y [<-|J]; [exact A|exact (B y J)].
  - exists x. split; assumption.
Qed.
Lemma amax_ok l : l <> [] -> exists m, amax l = Ok m.
Proof. destruct l as [|a l]; [contradiction|]. intros _. eexists. reflexivity. Qed.

Definition pair_of nu cfg speed inference (r : trajectory * Q) : result (Q * Q * Q) :=
  do d <- distances nu cfg speed (fst r) inference; Ok (d, snd r).

(** The distances that go with each rated trajectory. *)
Definition measured nu cfg speed inference (r : trajectory * Q) (e : Q * Q * Q) : Prop :=
  distances nu cfg speed (fst r) inference = Ok (fst e) /\ snd e = snd r.

Lemma measured_all nu cfg speed inference raters ds :
  mapM (pair_of nu cfg speed inference) raters = Ok ds ->
  (forall r, In r raters -> exists e, In e ds /\ measured nu cfg speed inference r e)
  /\ (forall e, In e ds -> exists r, In r raters /\ measured nu cfg speed inference r e).
Proof.
  intros E. apply mapM_inv in E.
  assert (X : Forall2 (measured nu cfg speed inference) raters ds).
  { eapply Forall2_weaken; [|exact E]. intros r e H. unfold pair_of in H. dbind H d D.
    apply Ok_inj in H. subst e. split; [exact D|reflexivity]. }
  clear E. induction X as [|r e rs ds H _ [IH1 IH2]]; [split; intros ? []|]. split.
  - intros x [<-|I]; [exists e; split; [left; reflexivity|exact H]|].
    destruct (IH1 x I) as (y & J & K). exists y. split; [right; exact J|exact K].
  - intros x [<-|I]; [exists r; split; [left; reflexivity|exact H]|].
    destruct (IH2 x I) as (y & J & K). exists y. split; [right; exact J|exact K].
Qed.

Lemma inference_inv nu cfg speed raters inference w s :
  inference_score nu cfg speed raters inference = Ok (w, s) ->
  exists ds s3 s5, mapM (pair_of nu cfg speed inference) raters = Ok ds
    /\ amax (map (fun e => snd e * decay nu cfg (fst (fst e))) ds) = Ok s3
    /\ amax (map (fun e => snd e * decay nu cfg (snd (fst e))) ds) = Ok s5
    /\ (w = true <-> exists e, In e ds /\ fst (fst e) <= 1 /\ snd (fst e) <= 1)
    /\ s = if w then (s3 + s5) / 2 else Qmax (minimum_outside cfg) ((s3 + s5) / 2).
Proof.
  unfold inference_score. fold (pair_of nu cfg speed inference). intros E.
  change (fun r : trajectory * Q => do d <- distances nu cfg speed (fst r) inference; Ok (d, snd r))
    with (pair_of nu cfg speed inference) in E.
  dbind E ds E1. dbind E s3 E2. dbind E s5 E3. apply Ok_inj in E. apply pair_equal_spec in E.
  destruct E as [<- <-]. exists ds, s3, s5. split; [exact E1|]. split; [exact E2|]. split; [exact E3|].
  split; [|reflexivity]. rewrite existsb_exists. split; intros (e & I & H); exists e; (split; [exact I|]).
  - apply andb_true_iff in H. destruct H as [H1 H2]. apply Qle_bool_iff in H1, H2. split; assumption.
  - destruct H as [H1 H2]. apply andb_true_iff. split; apply Qle_bool_iff; assumption.
Qed.

Lemma inference_total nu cfg speed raters inference : norm_laws nu -> positive_multipliers cfg ->
  raters <> [] -> (forall r, In r raters -> long_enough cfg (fst r)) -> long_enough cfg inference ->
  exists w s, inference_score nu cfg speed raters inference = Ok (w, s).
Proof.
  intros N P R L Li. unfold inference_score.
  assert (X : exists ds, mapM (pair_of nu cfg speed inference) raters = Ok ds).
  { clear R. induction raters as [|r rs IH]; [exists []; reflexivity|]. cbn [mapM].
    destruct (distances_region nu cfg speed (fst r) inference N P (L r (or_introl eq_refl)) Li) as (a & b & E & _).
    unfold pair_of at 1. rewrite E. cbn [bind]. destruct IH as (ds & ->); [intros x I; apply L; right; exact I|].
    eexists. reflexivity. }
  destruct X as (ds & E).
  change (fun r : trajectory * Q => do d <- distances nu cfg speed (fst r) inference; Ok (d, snd r))
    with (pair_of nu cfg speed inference). rewrite E. cbn [bind].
  assert (D : ds <> []).
  { pose proof (mapM_length _ _ _ E) as Hl. intros ->. destruct raters; [contradiction|discriminate]. }
  destruct (amax_ok (map (fun e => snd e * decay nu cfg (fst (fst e))) ds)) as (s3 & ->);
    [intros H; apply map_eq_nil in H; contradiction|].
  destruct (amax_ok (map (fun e => snd e * decay nu cfg (snd (fst e))) ds)) as (s5 & ->);
    [intros H; apply map_eq_nil in H; contradiction|].
  cbn [bind]. cbv zeta. eexists. eexists. reflexivity.
Qed.

Lemma within_region nu cfg speed raters inference w s : norm_laws nu -> positive_multipliers cfg ->
  (forall r, In r raters -> long_enough cfg (fst r)) -> long_enough cfg inference ->
  inference_score nu cfg speed raters inference = Ok (w, s) ->
  (w = true <-> exists r, In r raters /\ in_trust_region nu cfg speed (fst r) inference).
Proof.
  intros N P L Li E. destruct (inference_inv _ _ _ _ _ _ _ E) as (ds & s3 & s5 & E1 & _ & _ & W & _).
  rewrite W. destruct (measured_all _ _ _ _ _ _ E1) as [M1 M2]. split.
  - intros (e & I & H). destruct (M2 e I) as (r & J & D & _). exists r. split; [exact J|].
    destruct (distances_region nu cfg speed (fst r) inference N P (L r J) Li) as (a & b & D' & R).
    rewrite D in D'. apply Ok_inj in D'. apply R. rewrite D' in H. exact H.
  - intros (r & J & H). destruct (M1 r J) as (e & I & D & _). exists e. split; [exact I|].
    destruct (distances_region nu cfg speed (fst r) inference N P (L r J) Li) as (a & b & D' & R).
    rewrite D in D'. apply Ok_inj in D'. apply R in H. rewrite D'. exact H.
Qed.

Lemma decay_range nu cfg d : power_laws nu cfg -> 0 <= decay nu cfg d <= 1 /\ (d <= 1 -> decay nu cfg d == 1).
Proof.
  intros P. unfold decay. destruct (P (Qmax (d - 1) 0) (Q.le_max_r _ _)) as [A B]. split; [exact A|].
  intros H. apply B. apply Q.max_r. lra.
Qed.

Section Bounds.
Variables (nu : numerics) (cfg : config) (speed : Q) (raters : list (trajectory * Q)) (inference : trajectory).
Variables (w : bool) (s : Q).
Hypothesis E : inference_score nu cfg speed raters inference = Ok (w, s).
Hypothesis P : power_laws nu cfg.
Hypothesis Pos : forall r, In r raters -> 0 <= snd r.

Lemma best_bounds hi (sel : Q * Q -> Q) ds m :
  mapM (pair_of nu cfg speed inference) raters = Ok ds ->
  amax (map (fun e => snd e * decay nu cfg (sel (fst e))) ds) = Ok m ->
  (forall r, In r raters -> snd r <= hi) ->
  0 <= m <= hi
  /\ forall e, In e ds -> sel (fst e) <= 1 -> snd e <= m.
Proof.
  intros E1 E2 Hi. destruct (measured_all _ _ _ _ _ _ E1) as [_ M2]. destruct (amax_spec _ _ E2) as [A (x & I & ->)].
  apply in_map_iff in I. destruct I as (e & <- & I). destruct (M2 e I) as (r & J & _ & Er).
  destruct (decay_range nu cfg (sel (fst e)) P) as [D _]. pose proof (Pos r J) as P1. pose proof (Hi r J) as P2.
  rewrite Er in *. split; [split|].
  - apply Qmult_le_0_compat; [exact P1|exact (proj1 D)].
  - apply Qle_trans with (snd r * 1); [|lra].
    rewrite (Qmult_comm (snd r) _), (Qmult_comm (snd r) 1). apply Qmult_le_compat_r; [exact (proj2 D)|exact P1].
  - intros e' I' H'. destruct (decay_range nu cfg (sel (fst e')) P) as [_ D']. specialize (D' H').
    apply Qle_trans with (snd e' * decay nu cfg (sel (fst e'))); [rewrite D'; lra|].
    apply A. apply in_map_iff. exists e'. split; [reflexivity|exact I'].
Qed.

Lemma half_between a b lo hi : lo <= a <= hi -> lo <= b <= hi -> lo <= (a + b) / 2 <= hi.
Proof.
  intros H G. assert (X : (a + b) / 2 == (a + b) * (1 # 2)) by (unfold Qdiv; reflexivity).
  rewrite X. split; lra.
Qed.

Lemma score_bounds hi : (forall r, In r raters -> snd r <= hi) ->
  (w = true -> 0 <= s <= hi) /\ (w = false -> minimum_outside cfg <= s <= Qmax (minimum_outside cfg) hi).
Proof.
  intros Hi. destruct (inference_inv _ _ _ _ _ _ _ E) as (ds & s3 & s5 & E1 & E2 & E3 & W & ->).
  destruct (best_bounds hi fst ds s3 E1 E2 Hi) as [B3 _]. destruct (best_bounds hi snd ds s5 E1 E3 Hi) as [B5 _].
  pose proof (half_between _ _ _ _ B3 B5) as B. split; intros ->.
  - exact B.
  - split; [apply Q.le_max_l|]. apply Q.max_le_compat_l. exact (proj2 B).
Qed.

Lemma score_region r : norm_laws nu -> positive_multipliers cfg ->
  (forall r, In r raters -> long_enough cfg (fst r)) -> long_enough cfg inference ->
  In r raters -> in_trust_region nu cfg speed (fst r) inference -> snd r <= s.
Proof.
  intros N M L Li J T.
  assert (Wt : w = true).
  { apply (within_region nu cfg speed raters inference w s N M L Li E). exists r. split; assumption. }
  destruct (inference_inv _ _ _ _ _ _ _ E) as (ds & s3 & s5 & E1 & E2 & E3 & _ & Es).
  rewrite Wt in Es. subst s. destruct (measured_all _ _ _ _ _ _ E1) as [M1 _]. destruct (M1 r J) as (e & I & D & Er).
  destruct (distances_region nu cfg speed (fst r) inference N M (L r J) Li) as (a & b & D' & R).
  rewrite D in D'. apply Ok_inj in D'. apply R in T. destruct T as [T1 T2].
  assert (X : forall (sel : Q * Q -> Q) m, amax (map (fun e => snd e * decay nu cfg (sel (fst e))) ds) = Ok m ->
     sel (fst e) <= 1 -> snd r <= m).
  { intros sel m Em H. destruct (decay_range nu cfg (sel (fst e)) P) as [_ Dd]. specialize (Dd H).
    destruct (amax_spec _ _ Em) as [A _]. rewrite <- Er.
    apply Qle_trans with (snd e * decay nu cfg (sel (fst e))); [rewrite Dd; lra|].
    apply A. apply in_map_iff. exists e. split; [reflexivity|exact I]. }
  assert (X3 : snd r <= s3) by (apply (X fst s3 E2); rewrite D'; exact T1).
  assert (X5 : snd r <= s5) by (apply (X snd s5 E3); rewrite D'; exact T2).
  assert (Y : (s3 + s5) / 2 == (s3 + s5) * (1 # 2)) by (unfold Qdiv; reflexivity). rewrite Y. lra.
Qed.
End Bounds.

(** Only the set of rated trajectories matters. *)
Lemma amax_same l l' m : amax l = Ok m -> (forall x, In x l <-> In x l') -> exists m', amax l' = Ok m' /\ m' == m.
Proof.
  intros E H. destruct (amax_spec _ _ E) as [A (x & I & ->)].
  destruct (amax_ok l') as (m' & E'); [intros ->; apply H in I; destruct I|]. exists m'. split; [exact E'|].
  destruct (amax_spec _ _ E') as [A' (x' & I' & ->)]. apply Qle_antisym.
  - apply A. apply H. exact I'.
  - apply A'. apply H. exact I.
Qed.

Lemma Qmax_wd a b c : b == c -> Qmax a b == Qmax a c.
Proof. intros H. rewrite H. reflexivity. Qed.

Lemma same_raters nu cfg speed raters raters' inference w s :
  inference_score nu cfg speed raters inference = Ok (w, s) ->
  (forall r, In r raters <-> In r raters') ->
  exists s', inference_score nu cfg speed raters' inference = Ok (w, s') /\ s' == s.
Proof.
  intros E H. destruct (inference_inv _ _ _ _ _ _ _ E) as (ds & s3 & s5 & E1 & E2 & E3 & W & Es).
  assert (X : exists ds', mapM (pair_of nu cfg speed inference) raters' = Ok ds').
  { assert (K : forall r, In r raters' -> exists e, pair_of nu cfg speed inference r = Ok e).
    { intros r I. apply H in I. apply mapM_inv in E1. apply In_nth_error in I. destruct I as (k & I).
      destruct (Forall2_nth _ _ _ E1 k r I) as (e & _ & G). exists e. exact G. }
    clear -K. induction raters' as [|r rs IH]; [exists []; reflexivity|]. cbn [mapM].
    destruct (K r (or_introl eq_refl)) as (e & ->). destruct IH as (ds & ->); [intros x I; apply K; right; exact I|].
    eexists. reflexivity. }
  destruct X as (ds' & E1').
  assert (S : forall e, In e ds <-> In e ds').
  { apply mapM_inv in E1, E1'. intros e. split; intros I; apply In_nth_error in I; destruct I as (k & I).
    - destruct (Forall2_nth_r _ _ _ E1 k e I) as (r & J & G). apply nth_error_In in J. apply H in J.
      apply In_nth_error in J. destruct J as (k' & J). destruct (Forall2_nth _ _ _ E1' k' r J) as (e' & I' & G').
      rewrite G in G'. apply Ok_inj in G'. subst e'. exact (nth_error_In _ _ I').
    - destruct (Forall2_nth_r _ _ _ E1' k e I) as (r & J & G). apply nth_error_In in J. apply H in J.
      apply In_nth_error in J. destruct J as (k' & J). destruct (Forall2_nth _ _ _ E1 k' r J) as (e' & I' & G').
      rewrite G in G'. apply Ok_inj in G'. subst e'. exact (nth_error_In _ _ I'). }
  assert (Sm : forall f : Q * Q * Q -> Q, forall x, In x (map f ds) <-> In x (map f ds')).
  { intros f x. rewrite !in_map_iff. split; intros (e & F & I); exists e; (split; [exact F|apply S; exact I]). }
  destruct (amax_same _ _ _ E2 (Sm _)) as (t3 & F3 & Q3). destruct (amax_same _ _ _ E3 (Sm _)) as (t5 & F5 & Q5).
  unfold inference_score.
  change (fun r : trajectory * Q => do d <- distances nu cfg speed (fst r) inference; Ok (d, snd r))
    with (pair_of nu cfg speed inference).
  rewrite E1'. cbn [bind]. rewrite F3, F5. cbn [bind]. cbv zeta.
  assert (Ww : existsb (fun e : Q * Q * Q => Qle_bool (fst (fst e)) 1 && Qle_bool (snd (fst e)) 1) ds' = w).
  { apply Bool.eq_true_iff_eq. rewrite W, existsb_exists. split; intros (e & I & G); exists e; (split; [apply S; exact I|]).
    - apply andb_true_iff in G. destruct G as [G1 G2]. apply Qle_bool_iff in G1, G2. split; assumption.
    - destruct G as [G1 G2]. apply andb_true_iff. split; apply Qle_bool_iff; assumption. }
  rewrite Ww. eexists. split; [reflexivity|]. subst s. destruct w.
  - rewrite Q3, Q5. reflexivity.
  - apply Qmax_wd. rewrite Q3, Q5. reflexivity.
Qed.

(** Weighted sums. *)
Lemma fold_plus l : forall a, fold_left Qplus l a == a + fold_left Qplus l 0.
Proof.
  induction l as [|x l IH]; intros a; cbn [fold_left]; [ring|]. rewrite IH, (IH (0 + x)). ring.
Qed.
Lemma weighted_cons s p ss ps : weighted_sum (s :: ss) (p :: ps) == s * p + weighted_sum ss ps.
Proof. unfold weighted_sum. cbn [combine map fold_left fst snd]. rewrite fold_plus. ring. Qed.
Lemma weighted_bounds lo hi ss : forall ps, length ss = length ps ->
  (forall s, In s ss -> lo <= s <= hi) -> (forall p, In p ps -> 0 <= p) ->
  lo * fold_left Qplus ps 0 <= weighted_sum ss ps <= hi * fold_left Qplus ps 0.
Proof.
  induction ss as [|s ss IH]; intros [|p ps] L H G; try discriminate.
  - cbn. split; lra.
  - rewrite weighted_cons. cbn [fold_left]. rewrite fold_plus.
    destruct (IH ps) as [A B]; [cbn in L; lia|intros x I; apply H; right; exact I|intros x I; apply G; right; exact I|].
    pose proof (H s (or_introl eq_refl)) as [H1 H2]. pose proof (G p (or_introl eq_refl)) as Hp.
    pose proof (Qmult_le_compat_r _ _ p H1 Hp) as M1. pose proof (Qmult_le_compat_r _ _ p H2 Hp) as M2.
    set (F := fold_left Qplus ps 0) in *. split.
    + setoid_replace (lo * (0 + p + F)) with (lo * p + lo * F) by ring. lra.
    + setoid_replace (hi * (0 + p + F)) with (hi * p + hi * F) by ring. lra.
Qed.
Lemma weighted_wd ss : forall ss' ps, Forall2 Qeq ss ss' -> weighted_sum ss ps == weighted_sum ss' ps.
Proof.
  induction ss as [|s ss IH]; intros ss' ps F; inversion F as [|? s' ? ss'' E F']; subst; [reflexivity|].
  destruct ps as [|p ps]; [reflexivity|]. rewrite !weighted_cons, E, (IH _ _ F'). reflexivity.
Qed.

(** ** The exact value *)

Lemma box_growth nu rater inference k lat lng : norm_laws nu -> 0 < lat -> 0 < lng ->
  (k < length rater)%nat -> (k < length inference)%nat ->
  exists q, normalized_distance nu rater inference k lat lng = Ok q /\ growth nu rater inference k lat lng q.
Proof.
  intros N La Ln Hr Hi. unfold normalized_distance.
  rewrite (nth_error_point rater k Hr), (nth_error_point inference k Hi), (directions_heading nu rater k Hr).
  eexists. split; [reflexivity|]. intros c. pose proof (heading_positive nu rater k N) as P.
  unfold in_box. cbv zeta. set (d := heading_at nu rater k) in *.
  rewrite Q.max_lub_iff, (lng_value _ _ _ P), (lat_value _ _ _ N P). cbn [fst snd].
  assert (X : forall x m, 0 < m -> x / norm nu d / m <= c <-> x <= c * m * norm nu d).
  { intros x m Hm. split; intros G.
    - assert (E : x == x / norm nu d / m * (m * norm nu d)) by (field; split; lra). rewrite E.
      assert (E' : c * m * norm nu d == c * (m * norm nu d)) by ring. rewrite E'.
      apply Qmult_le_compat_r; [exact G|]. apply Qlt_le_weak, Qmult_lt_0_compat; assumption.
    - apply Qle_shift_div_r; [exact Hm|]. apply Qle_shift_div_r; [exact P|]. exact G. }
  rewrite (X _ _ La), (X _ _ Ln). reflexivity.
Qed.

Lemma distances_growth nu cfg speed rater inference a b : norm_laws nu -> positive_multipliers cfg ->
  long_enough cfg rater -> long_enough cfg inference ->
  distances nu cfg speed rater inference = Ok (a, b) ->
  growth3 nu cfg speed rater inference a /\ growth5 nu cfg speed rater inference b.
Proof.
  intros N [M1 M2] [F1 L1] [_ L2]. unfold distances. cbv zeta.
  destruct (thresholds_positive (lat_multiplier cfg) speed M1) as [A1 A2].
  destruct (thresholds_positive (lng_multiplier cfg) speed M2) as [B1 B2].
  destruct (box_growth nu rater inference (3 * frequency cfg - 1) _ _ N A1 B1) as (x & -> & Ha); [lia|lia|].
  destruct (box_growth nu rater inference (5 * frequency cfg - 1) _ _ N A2 B2) as (y & -> & Hb); [lia|lia|].
  cbn [bind]. intros E. apply Ok_inj in E. apply pair_equal_spec in E. destruct E as [<- <-]. split; assumption.
Qed.

Lemma score_exact nu cfg speed raters inference w s : norm_laws nu -> positive_multipliers cfg ->
  (forall r, In r raters -> long_enough cfg (fst r)) -> long_enough cfg inference ->
  inference_score nu cfg speed raters inference = Ok (w, s) -> score_of nu cfg speed raters inference w s.
Proof.
  intros N M L Li E. split; [exact (within_region _ _ _ _ _ _ _ N M L Li E)|].
  destruct (inference_inv _ _ _ _ _ _ _ E) as (ds & s3 & s5 & E1 & E2 & E3 & _ & Es).
  exists s3, s5. destruct (measured_all _ _ _ _ _ _ E1) as [M1 M2].
  assert (X : forall (sel : Q * Q -> Q) (g : trajectory -> Q -> Prop) m,
    (forall r e, In r raters -> measured nu cfg speed inference r e -> g (fst r) (sel (fst e))) ->
    amax (map (fun e => snd e * decay nu cfg (sel (fst e))) ds) = Ok m -> best nu cfg g raters m).
  { intros sel g m G Em. destruct (amax_spec _ _ Em) as [A (x & I & ->)]. split.
    - intros r J. destruct (M1 r J) as (e & Ie & Me). exists (sel (fst e)). split; [exact (G r e J Me)|].
      destruct Me as [_ Er]. rewrite <- Er. apply A. apply in_map_iff. exists e. split; [reflexivity|exact Ie].
    - apply in_map_iff in I. destruct I as (e & <- & I). destruct (M2 e I) as (r & J & Me).
      exists r, (sel (fst e)). split; [exact J|]. split; [exact (G r e J Me)|].
      destruct Me as [_ Er]. rewrite <- Er. reflexivity. }
  split; [|split; [|exact Es]].
  - apply (X fst); [|exact E2]. intros r [[a b] l] J [D _].
    exact (proj1 (distances_growth _ _ _ _ _ a b N M (L r J) Li D)).
  - apply (X snd); [|exact E3]. intros r [[a b] l] J [D _].
    exact (proj2 (distances_growth _ _ _ _ _ a b N M (L r J) Li D)).
Qed.
