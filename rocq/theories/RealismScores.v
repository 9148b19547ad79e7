(** The scores of the features of a scenario. *)
From Coq Require Import QArith Reals Qreals Lia Lra Arith.
From Verif Require Import Base ResultLib EstimatorModel EstimatorSpec EstimatorProofs MetametricModel KinematicModel KinematicSpec KinematicProofs RealismModel RealismSpec RealismProofs.
Open Scope list_scope.

Lemma kinematic_fst v i : nth i (fst (compute_kinematic_validity v)) false = true <->
  (1 <= i)%nat /\ nth (i - 1) v false = true /\ nth (i + 1) v false = true.
Proof.
  rewrite !nth_true. destruct (compute_kinematic_validity v) as [s a] eqn:E. exact (proj1 (validity_exact v s a E) i).
Qed.
Lemma kinematic_snd v i : nth i (snd (compute_kinematic_validity v)) false = true <->
  (2 <= i)%nat /\ nth (i - 2) v false = true /\ nth i v false = true /\ nth (i + 2) v false = true.
Proof.
  rewrite !nth_true. destruct (compute_kinematic_validity v) as [s a] eqn:E. exact (proj2 (validity_exact v s a E) i).
Qed.
Lemma kinematic_lengths v : (2 <= length v)%nat ->
  length (fst (compute_kinematic_validity v)) = length v /\ length (snd (compute_kinematic_validity v)) = length v.
Proof.
  intros H. destruct (compute_kinematic_validity v) as [s a] eqn:E. destruct (validity_lengths v s a E) as [A B]. cbn [fst snd]. lia.
Qed.

Lemma nth_map_rows (f : list bool -> list bool) rows o t : (o < length rows)%nat ->
  nth t (nth o (map f rows) []) false = nth t (f (nth o rows [])) false.
Proof. intros H. rewrite (nth_indep _ [] (f [])) by (rewrite map_length; exact H). rewrite map_nth. reflexivity. Qed.

Lemma nth_map_false (g : bool -> bool) l t : g false = false -> nth t (map g l) false = g (nth t l false).
Proof. intros H. rewrite <- H at 1. apply map_nth. Qed.

Lemma vehicle_nth rows vs o t : length vs = length rows -> (o < length rows)%nat ->
  nth t (nth o (vehicle_validity rows vs) []) false = nth t (nth o rows []) false && nth o vs false.
Proof.
  intros L H. unfold vehicle_validity.
  set (f := fun p : list bool * bool => map (fun b => b && snd p) (fst p)).
  rewrite (nth_indep _ [] (f ([], false))) by (rewrite map_length, combine_length; lia).
  rewrite map_nth, combine_nth by lia. subst f. cbn [fst snd]. rewrite nth_map_false by reflexivity. reflexivity.
Qed.

Lemma mask_sized ft no nt m : (2 <= nt)%nat -> sized no nt (valid ft) -> length (is_vehicle ft) = no -> sized no nt (series_mask ft m).
Proof.
  intros T [L F] V.
  assert (forall f : list bool -> list bool, (forall v, length v = nt -> length (f v) = nt) -> sized no nt (map f (valid ft))) as M.
  { intros f H. split; [rewrite map_length; exact L|]. intros row I. apply in_map_iff in I. destruct I as (v & <- & I). auto. }
  assert (sized no nt (vehicle_validity (valid ft) (is_vehicle ft))) as W.
  { unfold vehicle_validity. split; [rewrite map_length, combine_length; lia|]. intros row I. apply in_map_iff in I. destruct I as ([v b] & <- & I).
    rewrite map_length. apply F. exact (in_combine_l _ _ _ _ I). }
  destruct m; cbn [series_mask]; try (split; assumption); try exact W; apply M; intros v H; subst nt; apply (kinematic_lengths v T).
Qed.

Lemma mask_scored ft no nt m o t : sized no nt (valid ft) -> length (is_vehicle ft) = no -> (o < no)%nat ->
  nth t (nth o (series_mask ft m) []) false = true <-> scored ft m o t.
Proof.
  intros [L F] V Ho.
  destruct m; cbn [series_mask scored]; unfold valid_at, vehicle;
    rewrite ?nth_map_rows by lia; rewrite ?vehicle_nth by lia; rewrite ?kinematic_fst, ?kinematic_snd, ?andb_true_iff; tauto.
Qed.

(** * Time series *)
Lemma series_spec gauss config ft nr no nt m :
  nr <> 0%nat -> no <> 0%nat -> (2 <= nt)%nat -> well_shaped nr no nt ft -> smooth_config config -> is_event m = false ->
  exists s, score gauss config ft m = Ok s /\ series_score gauss config ft nr no nt m s /\ (forall g, s = Some g -> (0 < g < 1)%R).
Proof.
  intros Hr Hno Hnt (Wt & _ & Wv & Wk) Sc Em. destruct (Wt m Em) as [(D1 & S1 & L1) (D2 & S2 & L2)].
  destruct (timeseries_spec gauss (config m) (log_values ft m) (sim_values ft m) nr no nt) as (res & E & Len & H); try assumption.
  { split; [rewrite S1; exact L1|]. rewrite D1. discriminate. }
  { split; [rewrite S2; exact L2|]. rewrite D2. discriminate. }
  { lia. }
  { pose proof (Sc m) as Sm. destruct (estimator_of (config m)) as [c|h|a|]; try contradiction; cbn [usable].
    - repeat split; try assumption. lia. - destruct Sm as [Sm _]. congruence. }
  { pose proof (Sc m) as Sm. destruct (estimator_of (config m)) as [c|h|a|]; cbn [bounds_ok]; tauto. }
  set (P := fun (ot : nat * nat) (q : Q) => (0 < q < 1)%Q /\ likelihood gauss (estimator_of (config m))
    (population (config m) nr no nt (sim_values ft m) (fst ot) (snd ot)) (log_at nt (log_values ft m) (fst ot) (snd ot)) (Some q)).
  assert (exists qs, res = map Some qs /\ Forall inside qs /\ Forall2 P (grid no nt) qs) as (qs & Rq & In_qs & Fq).
  { assert (Forall2 (fun ot r => exists q, r = Some q /\ P ot q) (grid no nt) res) as F.
    { apply forall2_nth; [rewrite grid_length, Len; reflexivity|]. intros k [o t] K. apply grid_index in K. destruct K as (-> & Ho & Ht).
      destruct (H o t Ho Ht) as (r & Nr & Lr). exists r. split; [exact Nr|]. destruct (smooth_inside gauss config m _ _ _ Sc Lr) as (q & -> & Iq).
      exists q. split; [reflexivity|]. split; assumption. }
    clear - F. induction F as [|ot r l res (q & -> & Pq) F (qs & -> & Iq & Fq)]; [exists []; repeat constructor|].
    exists (q :: qs). repeat split; constructor; try assumption. exact (proj1 Pq). }
  pose proof (mask_sized ft no nt m Hnt Wv Wk) as Ms.
  set (mb := fun ot : nat * nat => nth (snd ot) (nth (fst ot) (series_mask ft m) []) false).
  assert (concat (series_mask ft m) = map mb (grid no nt)) as Cm by (apply concat_grid; exact Ms).
  unfold score. rewrite Em, E. cbn [bind]. unfold average_with_validity. rewrite Cm, Rq, !map_length.
  assert (length qs = length (grid no nt)) as Lq by (rewrite grid_length, <- Len, Rq, map_length; reflexivity).
  rewrite Lq, Nat.eqb_refl. cbn [negb bind].
  set (sel := selected qs (map mb (grid no nt))).
  unfold sum_of. rewrite sum_masked by (rewrite ?map_length; assumption). rewrite Rplus_0_l. fold sel.
  assert (length (filter (fun b : bool => b) (map mb (grid no nt))) = length sel) as Ls by (unfold sel; rewrite selected_length; [reflexivity|rewrite map_length; exact Lq]).
  rewrite Ls. eexists. split; [reflexivity|].
  assert (Forall2 P (filter mb (grid no nt)) sel) as Fs by (apply selected_map; exact Fq).
  assert (Forall inside sel) as Is by (apply selected_forall; exact In_qs).
  assert (NoDup (filter mb (grid no nt))) as Nd by (apply NoDup_filter, grid_nodup).
  assert (forall o t, In (o, t) (filter mb (grid no nt)) <-> (o < no)%nat /\ (t < nt)%nat /\ scored ft m o t) as Hin.
  { intros o t. rewrite filter_In, grid_in. split.
    - intros ([Ho Ht] & B). repeat split; try assumption. exact (proj1 (mask_scored ft no nt m o t Wv Wk Ho) B).
    - intros (Ho & Ht & B). repeat split; try assumption. exact (proj2 (mask_scored ft no nt m o t Wv Wk Ho) B). }
  assert (sel = [] \/ sel <> []) as [Z|Z] by (destruct sel; [left; reflexivity|right; discriminate]).
  - rewrite Z in *. cbn [total_ln length over Nat.eqb exp_of]. split; [|discriminate].
    exists (filter mb (grid no nt)), []. split; [exact Nd|]. split; [exact Hin|]. split; [exact Fs|]. inversion Fs; reflexivity.
  - destruct (mean_value sel Z Is) as (g & Eg & Gm & Lt). rewrite Eg. split.
    + exists (filter mb (grid no nt)), sel. split; [exact Nd|]. split; [exact Hin|]. split; [exact Fs|]. split; [|exact Gm].
      intros C. rewrite C in Fs. inversion Fs. congruence.
    + intros g' Q. injection Q as <-. split; [exact (proj1 Gm)|exact Lt].
Qed.

(** * Events *)
Lemma existsb_combine {A} (g : bool -> A -> bool) (da : A) : forall v e, length v = length e ->
  existsb (fun q : bool * A => g (fst q) (snd q)) (combine v e) = existsb (fun t => g (nth t v false) (nth t e da)) (seq 0 (length v)).
Proof.
  induction v as [|b v IH]; intros [|a e] L; cbn [length] in L; try discriminate; [reflexivity|].
  cbn [combine existsb fst snd length seq nth]. f_equal. rewrite IH by lia. rewrite <- seq_shift.
  generalize (seq 0 (length v)). induction l as [|x l IHl]; [reflexivity|]. cbn [existsb map nth]. rewrite IHl. reflexivity.
Qed.

Lemma existsb_ext_in {A} (f g : A -> bool) : forall l, (forall x, In x l -> f x = g x) -> existsb f l = existsb g l.
Proof. induction l as [|x l IH]; intros H; [reflexivity|]. cbn. rewrite (H x) by (left; reflexivity). f_equal. apply IH. intros y Y. apply H. right; exact Y. Qed.

Lemma mask_counts ft no nt m o t : sized no nt (valid ft) -> length (is_vehicle ft) = no -> (o < no)%nat -> is_event m = true ->
  nth t (nth o (series_mask ft m) []) false = counts ft m o t.
Proof.
  intros [L F] V Ho E. unfold counts, valid_at, vehicle. destruct m; try discriminate E; cbn [series_mask];
    rewrite ?vehicle_nth by lia; rewrite ?andb_true_r; reflexivity.
Qed.

(** One rollout of indications. *)
Lemma row_happened ft no nt m ev : (2 <= nt)%nat -> sized no nt (valid ft) -> length (is_vehicle ft) = no -> is_event m = true -> sized no nt ev ->
  map (fun p => existsb (fun q : bool * bool => fst q && snd q) (combine (fst p) (snd p))) (combine (series_mask ft m) ev)
  = map (happened ft m ev nt) (seq 0 no).
Proof.
  intros T Wv Wk Em [Le Fe]. destruct (mask_sized ft no nt m T Wv Wk) as [Lm Fm].
  rewrite (map_nth_seq ([], [])), combine_length, Lm, Le, Nat.min_id. apply map_ext_in. intros o H. apply in_seq in H.
  rewrite combine_nth by lia. cbn [fst snd]. rewrite (existsb_combine andb false).
  - rewrite (Fm (nth o (series_mask ft m) [])) by (apply nth_In; lia). apply existsb_ext_in. intros t _.
    rewrite (mask_counts ft no nt) by (assumption || lia). reflexivity.
  - rewrite (Fm (nth o (series_mask ft m) [])) by (apply nth_In; lia). rewrite (Fe (nth o ev [])) by (apply nth_In; lia). reflexivity.
Qed.

Lemma bit_truth b : bit b = truth b.
Proof. reflexivity. Qed.

Lemma nth_blocks {A} (d : A) : forall rows no r o, (forall row, In row rows -> length row = no) -> (r < length rows)%nat -> (o < no)%nat ->
  nth (r * no + o) (concat rows) d = nth o (nth r rows []) d.
Proof.
  induction rows as [|row rows IH]; intros no r o F Hr Ho; cbn [length] in Hr; [lia|]. cbn [concat]. pose proof (F row (or_introl eq_refl)) as L.
  destruct r as [|r]; cbn [nth].
  - rewrite app_nth1 by lia. reflexivity.
  - rewrite app_nth2 by (cbn; lia). replace (S r * no + o - length row)%nat with (r * no + o)%nat by (cbn; lia).
    apply IH; [|lia|exact Ho]. intros x X. apply F. right; exact X.
Qed.

Lemma event_spec gauss config ft nr no nt m :
  nr <> 0%nat -> no <> 0%nat -> (2 <= nt)%nat -> well_shaped nr no nt ft -> smooth_config config -> is_event m = true ->
  exists g, score gauss config ft m = Ok (Some g) /\ event_score config ft nr no nt m (Some g) /\ (0 < g < 1)%R.
Proof.
  intros Hr Hno Hnt (_ & We & Wv & Wk) Sc Em. destruct (We m Em) as (Wl & Lr & Wr).
  assert (length (valid ft) = no) as Lv by exact (proj1 Wv).
  pose proof (row_happened ft no nt m (log_events ft m) Hnt Wv Wk Em Wl) as El.
  assert (t_data (log_indication ft m) = map (log_happened ft m nt) (seq 0 no)) as Dl.
  { unfold log_indication, indication. cbn [t_data map concat]. rewrite app_nil_r, El, map_map. reflexivity. }
  assert (indication (series_mask ft m) (sim_events ft m) = map (fun ev => map (happened ft m ev nt) (seq 0 no)) (sim_events ft m)) as Es.
  { unfold indication. apply map_ext_in. intros ev I. apply row_happened; auto. }
  assert (forall r o, (r < nr)%nat -> (o < no)%nat -> sim_at no 1 (sim_indication ft m) r o 0 = sim_happened ft m nt r o) as As.
  { intros r o Br Bo. unfold sim_at, sim_indication. cbn [t_data]. rewrite Es, Nat.mul_1_r, Nat.add_0_r.
    rewrite (map_nth bit _ false). rewrite nth_blocks.
    - unfold sim_happened. rewrite bit_truth. f_equal.
      set (f := fun ev => map (happened ft m ev nt) (seq 0 no)). rewrite (nth_indep _ [] (f [])) by (rewrite map_length; lia).
      rewrite map_nth. unfold f. rewrite (nth_indep _ false (happened ft m (nth r (sim_events ft m) []) nt 0)) by (rewrite map_length, seq_length; exact Bo).
      rewrite map_nth, seq_nth by exact Bo. reflexivity.
    - intros row I. apply in_map_iff in I. destruct I as (ev & <- & _). rewrite map_length, seq_length. reflexivity.
    - rewrite map_length. lia.
    - exact Bo. }
  pose proof (Sc m) as Sm. destruct (estimator_of (config m)) as [c|h|a|] eqn:Ee; try contradiction; [destruct Sm as [Sm _]; congruence|].
  destruct (scenario_level_spec gauss (config m) (log_indication ft m) (sim_indication ft m) nr no) as (res & E & Len & H); try assumption.
  { split; [rewrite Dl, map_length, seq_length; unfold log_indication; cbn [t_shape volume fold_right]; lia|].
    intros _ v I. rewrite Dl in I. apply in_map_iff in I. destruct I as (o & <- & _). unfold log_happened, truth.
    destruct (happened _ _ _ _ _); auto. }
  { split.
    - unfold sim_indication. cbn [t_data t_shape volume fold_right]. rewrite Es, map_length, Lv, Nat.mul_1_r.
      clear. induction (sim_events ft m) as [|ev l IH]; [reflexivity|]. cbn [map concat length]. rewrite app_length, IH, map_length, seq_length. cbn. lia.
    - intros _ v I. unfold sim_indication in I. cbn [t_data] in I. apply in_map_iff in I. destruct I as ([] & <- & _); cbn; auto. }
  { unfold log_indication. cbn [t_shape]. congruence. }
  { unfold sim_indication. cbn [t_shape]. congruence. }
  { rewrite Ee. cbn. auto. }
  { rewrite Ee. exact I. }
  assert (forall o, (o < no)%nat -> population (config m) nr no 1 (sim_indication ft m) o 0 = outcomes (config m) ft m nr no nt o) as Pop.
  { intros o Bo. unfold population, outcomes. rewrite !flat_map_concat_map. f_equal. apply map_ext_in. intros r I. apply in_seq in I.
    assert (forall l, (forall x, In x l -> (x < no)%nat) ->
      flat_map (fun o' => map (fun t' => sim_at no 1 (sim_indication ft m) r o' t') (if independent_timesteps (config m) then seq 0 1 else [0%nat])) l
      = map (sim_happened ft m nt r) l) as Fm.
    { intros l B. induction l as [|x l IHl]; [reflexivity|]. cbn [flat_map map]. rewrite IHl by (intros y Y; apply B; right; exact Y).
      assert (x < no)%nat as Bx by (apply B; left; reflexivity).
      destruct (independent_timesteps (config m)); cbn [seq map app]; rewrite As by (lia || exact Bx); reflexivity. }
    apply Fm. intros x X. destruct (aggregate_objects (config m)); [apply in_seq in X; lia|]. destruct X as [<-|[]]. exact Bo. }
  set (P := fun (o : nat) (q : Q) => (0 < q < 1)%Q /\ bernoulli_likelihood a (outcomes (config m) ft m nr no nt o) (log_happened ft m nt o) (Some q)).
  assert (exists qs, res = map Some qs /\ Forall inside qs /\ Forall2 P (seq 0 no) qs) as (qs & Rq & In_qs & Fq).
  { assert (Forall2 (fun o r => exists q, r = Some q /\ P o q) (seq 0 no) res) as F.
    { apply forall2_nth; [rewrite seq_length, Len; reflexivity|]. intros k o K.
      assert (k < no)%nat as Bk. { assert (nth_error (seq 0 no) k <> None) as N by congruence. apply nth_error_Some in N. rewrite seq_length in N. exact N. }
      apply nth_error_nth with (d := 0%nat) in K. rewrite seq_nth in K by exact Bk. cbn in K. subst o.
      destruct (H k Bk) as (r & Nr & Lk). exists r. split; [exact Nr|]. destruct (smooth_inside gauss config m _ _ _ Sc Lk) as (q & -> & Iq).
      exists q. split; [reflexivity|]. split; [exact Iq|]. rewrite Ee in Lk. cbn [likelihood] in Lk. rewrite (Pop k Bk), Dl in Lk.
      rewrite (nth_indep _ 0%Q (log_happened ft m nt 0)) in Lk by (rewrite map_length, seq_length; exact Bk).
      rewrite map_nth, seq_nth in Lk by exact Bk. exact Lk. }
    clear - F. induction F as [|ot r l res (q & -> & Pq) F (qs & -> & Iq & Fq)]; [exists []; repeat constructor|].
    exists (q :: qs). repeat split; constructor; try assumption. exact (proj1 Pq). }
  unfold score. rewrite Em, E. cbn [bind]. rewrite Rq. unfold sum_of. rewrite sum_finite by exact In_qs. rewrite Rplus_0_l, map_length.
  assert (qs <> []) as Z. { intros ->. rewrite Rq in Len. cbn in Len. congruence. }
  destruct (mean_value qs Z In_qs) as (g & Eg & Gm & Lt). rewrite Eg. exists g. split; [reflexivity|]. split; [|split; [exact (proj1 Gm)|exact Lt]].
  exists a, qs, g. auto.
Qed.
