(** The rows of the features of a scorable scene. *)
From Coq Require Import Reals Permutation Lra.
From Verif Require Import Base ResultLib ListLib MonadLib SimModel SimSpec SimProofs GeomModel GeomSceneSpec TtcModel RoadModel RoadSpec.
From Verif Require GeomNearestProofs TtcProofs RoadProofs RoadBoxProofs.
From Verif Require Import MfeatModel MfeatSpec MfeatCore MfeatProofs.
Open Scope list_scope.
Open Scope R_scope.

Lemma dbind_ok {A B} (x : result A) (f : A -> result B) b : bind x f = Ok b -> exists a, x = Ok a /\ f a = Ok b.
Proof. destruct x as [a|e]; cbn [bind]; [|discriminate]. eauto. Qed.
Tactic Notation "db" hyp(H) ident(a) ident(E) := apply dbind_ok in H; destruct H as (a & E & H).

(** What a computed record holds. *)
Lemma assemble_inv {S} (X : extractors S) sc ct b os rest logs f : assemble X sc ct b os rest logs = Ok f ->
  exists kin distances ttc road red ade,
    mapM (fun o => kinematic X (o_x o) (o_y o) (o_z o) (o_heading o)) os = Ok kin /\
    nearest_feature (of_objs (os ++ rest)) (first_mask (length os) (length rest)) = Ok distances /\
    ttc_feature (of_objs (os ++ rest)) (first_mask (length os) (length rest)) = Ok ttc /\
    road_feature (of_objs (os ++ rest)) (first_mask (length os) (length rest)) (road_edges_of (map_features sc)) = Ok road /\
    red_feature X sc (length os) (of_objs (os ++ rest)) (first_mask (length os) (length rest)) = Ok red /\
    match ct with
    | SIM_AGENTS => last_dim (map o_x os) = last_dim (map o_x logs) /\ ade = map obj_ade (combine os logs)
    | SCENARIO_GEN => ade = repeat (Some 0) (length (if b then map o_valid logs else map o_valid os))
    end /\
    f = {| f_object_id := map o_id os; f_object_type := [map o_type os];
        f_valid := [after_current ct (if b then map o_valid logs else map o_valid os)]; f_ade := [ade];
        f_speed := [after_current ct (map k_speed kin)]; f_accel := [after_current ct (map k_accel kin)];
        f_turn := [after_current ct (map k_turn kin)]; f_turn_accel := [after_current ct (map k_turn_accel kin)];
        f_distance := [after_current ct distances]; f_collision := [map (map is_colliding) (after_current ct distances)];
        f_ttc := [after_current ct ttc];
        f_road := [after_current ct road]; f_offroad := [map (map is_offroad) (after_current ct road)];
        f_red := [after_current ct red] |}.
Proof.
  intros H. unfold assemble in H. db H kin E1. db H distances E2. db H ttc E3. db H road E4. db H red E5. db H ade E6.
  apply Ok_inj in H. exists kin, distances, ttc, road, red, ade. do 5 (split; [assumption|]). split; [|now symmetry].
  destruct ct.
  - destruct (Nat.eqb_spec (last_dim (map o_x os)) (last_dim (map o_x logs))) as [E|]; cbn [negb] in E6; [|discriminate].
    split; [exact E|congruence].
  - congruence.
Qed.

(** * The displacement error *)
Lemma valid_steps_count (log : list (state R)) : valid_steps (map s_valid log) = INR (number_valid log).
Proof.
  unfold number_valid. induction log as [|s log IH]; [reflexivity|]. cbn [map filter]. unfold valid_steps in *. cbn [fold_right]. rewrite IH.
  destruct (s_valid s); [|lra]. cbn [length]. rewrite S_INR. lra.
Qed.
Lemma masked_total x : forall y z (log : list (state R)), length x = length log -> length y = length log -> length z = length log ->
  masked_sum (map s_valid log) (displacement x y z (map center_x log) (map center_y log) (map center_z log)) = total_error x y z log.
Proof.
  induction x as [|a x IH]; intros [|b y] [|c z] [|s log]; cbn [length]; intros L1 L2 L3; try lia; [reflexivity|].
  cbn [map displacement masked_sum total_error]. rewrite IH by lia. reflexivity.
Qed.
Lemma total_history (h rest : list (state R)) x y z :
  total_error (map center_x h ++ x) (map center_y h ++ y) (map center_z h ++ z) (h ++ rest) = total_error x y z rest.
Proof.
  induction h as [|s h IH]; [reflexivity|]. cbn [map app total_error]. rewrite IH. unfold distance_3d.
  replace ((center_x s - center_x s) * (center_x s - center_x s) + (center_y s - center_y s) * (center_y s - center_y s) + (center_z s - center_z s) * (center_z s - center_z s)) with 0 by ring.
  rewrite sqrt_0. destruct (s_valid s); lra.
Qed.
Lemma number_valid_app {F} (a b : list (state F)) : number_valid (a ++ b) = (number_valid a + number_valid b)%nat.
Proof. unfold number_valid. now rewrite filter_app, app_length. Qed.
Lemma total_error_nonneg x : forall y z log, 0 <= total_error x y z log.
Proof.
  induction x as [|a x IH]; intros [|b y] [|c z] [|s log]; cbn [total_error]; try lra.
  specialize (IH y z log). unfold distance_3d. destruct (s_valid s); [|lra].
  match goal with |- context [sqrt ?u] => pose proof (sqrt_pos u) end. lra.
Qed.

Lemma agent_valid_now n sc js b id o tr : scorable_for n sc js -> sim_agent sc js b id o tr -> (1 <= number_valid (firstn 11 (states tr)))%nat.
Proof.
  intros (_ & (_ & Ha) & _ & Ho & _) (s & cur & Hs & Es & Ht & Et & Hc & _).
  assert (required sc id) as Hr by (apply Ha; rewrite <- Es; now apply in_map).
  pose proof (Ho id Hr) as H1. destruct Hr as (t' & s' & Ht' & Et' & Hc' & Hv).
  assert (t' = tr) as -> by (apply (once_track (tracks sc) id); assumption).
  rewrite (firstn_snoc _ _ _ Hc'). rewrite number_valid_app. unfold number_valid at 2. cbn [filter]. rewrite Hv. cbn [length]. lia.
Qed.

Lemma ade_value sc js (b : bool) id s cur tr : scorable sc js -> In s js -> sim_id s = id -> In tr (tracks sc) -> track_id tr = id ->
  nth_error (states tr) 10 = Some cur ->
  obj_ade (simulated_object tr cur s (if b then map s_valid (skipn 11 (states tr)) else repeat true 80), track_object tr) =
  Some (total_error (sim_x s) (sim_y s) (sim_z s) (skipn 11 (states tr)) /
        INR (number_valid (firstn 11 (states tr)) + number_valid (skipn 11 (states tr)))).
Proof.
  intros H Hs Es Ht Et Hc.
  assert (sim_agent sc js b id (simulated_object tr cur s (if b then map s_valid (skipn 11 (states tr)) else repeat true 80)) tr) as Hag
    by (exists s, cur; repeat split; assumption).
  destruct (agent_lengths _ _ _ _ _ _ _ H Hag) as (L1 & L2 & L3 & _ & _ & _ & _ & _ & L9).
  pose proof (agent_valid_now _ _ _ _ _ _ _ H Hag) as Hv.
  unfold obj_ade. cbn [fst snd]. unfold track_object. cbn [o_valid o_x o_y o_z].
  unfold mean_error. rewrite valid_steps_count.
  rewrite <- number_valid_app, firstn_skipn.
  assert (number_valid (states tr) <> 0)%nat as Hn.
  { rewrite <- (firstn_skipn 11 (states tr)), number_valid_app. lia. }
  destruct (Req_EM_T (INR (number_valid (states tr))) 0) as [E|_]; [exfalso; exact (not_0_INR _ Hn E)|].
  f_equal. f_equal. rewrite masked_total by (rewrite L9; assumption).
  unfold simulated_object. cbn [o_x o_y o_z].
  pose proof (total_history (firstn 11 (states tr)) (skipn 11 (states tr)) (sim_x s) (sim_y s) (sim_z s)) as Q.
  now rewrite firstn_skipn in Q.
Qed.

(** * Rows *)
Lemma slice_from {A} k (r : list A) : py_slice k None r = skipn k r.
Proof. reflexivity. Qed.
Lemma after_nth {A} (rows : list (list A)) k : nth_error (after_current SIM_AGENTS rows) k = option_map (skipn 11) (nth_error rows k).
Proof. unfold after_current. cbn [submission_config current_time_index Nat.add]. now rewrite nth_error_map'. Qed.
Lemma after_entry {A} (rows : list (list A)) k r : nth_error rows k = Some r -> agent_entry [after_current SIM_AGENTS rows] k (skipn 11 r).
Proof. intros H. eexists. split; [reflexivity|]. now rewrite after_nth, H. Qed.
Lemma after_length {A} ct (rows : list (list A)) : length (after_current ct rows) = length rows.
Proof. destruct ct; [apply map_length|reflexivity]. Qed.

Lemma nth_combine {A B} (a : list A) : forall (b : list B) k x y, nth_error a k = Some x -> nth_error b k = Some y -> nth_error (combine a b) k = Some (x, y).
Proof. induction a as [|u a IH]; intros [|v b] [|k] x y H1 H2; try discriminate; cbn in *; [congruence|auto]. Qed.

Lemma agent_number {S} n (sc : full_scenario S) js b os trs k id o tr : scorable_for n (agents sc) js ->
  Forall2 (fun o tr => sim_agent (agents sc) js b (o_id o) o tr) os trs ->
  nth_error (map o_id os) k = Some id -> sim_agent (agents sc) js b id o tr ->
  nth_error os k = Some o /\ nth_error trs k = Some tr.
Proof.
  intros H F Hk Hag. rewrite nth_error_map' in Hk. destruct (nth_error os k) as [o'|] eqn:E; [|discriminate].
  cbn [option_map] in Hk. destruct (Forall2_nth _ _ _ F _ _ E) as (tr' & E' & Hag').
  assert (o_id o' = id) as Eid by congruence. rewrite Eid in Hag'.
  destruct (agent_unique _ _ _ _ _ _ _ _ _ H Hag Hag') as (<- & <-). split; [reflexivity|exact E'].
Qed.

Theorem ids_listed {S} (X : extractors S) (sc : full_scenario S) js (b : bool) f : scorable (agents sc) js -> listing X ->
  compute_metric_features X sc js SIM_AGENTS b = Ok f ->
  increasing (f_object_id f) /\ (forall id, In id (f_object_id f) <-> evaluated_agent (agents sc) id) /\
  (let n := length (f_object_id f) in
   one_sample (f_object_type f) n /\ one_sample (f_valid f) n /\ one_sample (f_ade f) n /\ one_sample (f_speed f) n /\
   one_sample (f_accel f) n /\ one_sample (f_turn f) n /\ one_sample (f_turn_accel f) n).
Proof.
  intros H HX E. destruct (features_shape _ X sc js b H HX) as (ids & os & rest & trs & Ec & Hinc & Hev & Hid & F & G & P).
  rewrite Ec in E. destruct (assemble_inv X _ _ _ _ _ _ _ E) as (kin & ds & ttc & road & red & ade & E1 & _ & _ & _ & _ & (_ & E6) & ->).
  cbn [f_object_id f_object_type f_valid f_ade f_speed f_accel f_turn f_turn_accel].
  rewrite Hid. split; [exact Hinc|]. split; [exact Hev|]. rewrite <- Hid.
  pose proof (mapM_length _ _ _ E1) as L1. pose proof (forall2_length _ _ _ F) as L2.
  rewrite map_length. cbv zeta. unfold one_sample.
  repeat split; eexists; (split; [reflexivity|]); rewrite ?after_length, ?map_length; try reflexivity; try assumption.
  - destruct b; rewrite !map_length; [now symmetry|reflexivity].
  - rewrite E6, map_length, combine_length, map_length, <- L2. apply Nat.min_id.
Qed.

Theorem own_rows {S} (X : extractors S) (sc : full_scenario S) js (b : bool) f : scorable (agents sc) js -> listing X ->
  compute_metric_features X sc js SIM_AGENTS b = Ok f ->
  forall k id o tr, nth_error (f_object_id f) k = Some id -> sim_agent (agents sc) js b id o tr ->
    agent_entry (f_object_type f) k (track_type tr) /\
    agent_entry (f_valid f) k (if b then map s_valid (skipn 11 (states tr)) else repeat true 80) /\
    exists kin, kinematic X (o_x o) (o_y o) (o_z o) (o_heading o) = Ok kin /\
      agent_entry (f_speed f) k (skipn 11 (k_speed kin)) /\ agent_entry (f_accel f) k (skipn 11 (k_accel kin)) /\
      agent_entry (f_turn f) k (skipn 11 (k_turn kin)) /\ agent_entry (f_turn_accel f) k (skipn 11 (k_turn_accel kin)).
Proof.
  intros H HX E k id o tr Hk Hag. destruct (features_shape _ X sc js b H HX) as (ids & os & rest & trs & Ec & Hinc & Hev & Hid & F & G & P).
  rewrite Ec in E. destruct (assemble_inv X _ _ _ _ _ _ _ E) as (kin & ds & ttc & road & red & ade & E1 & _ & _ & _ & _ & (_ & E6) & ->).
  cbn [f_object_id f_object_type f_valid f_ade f_speed f_accel f_turn f_turn_accel] in *.
  destruct (agent_number _ sc js b os trs k id o tr H F Hk Hag) as (Ho & Ht).
  assert (o_type o = track_type tr) as Ety by (destruct Hag as (s & cur & _ & _ & _ & _ & _ & ->); reflexivity).
  split; [|split].
  - eexists. split; [reflexivity|]. now rewrite nth_error_map', Ho, <- Ety.
  - eexists. split; [reflexivity|]. rewrite after_nth. destruct b.
    + rewrite !nth_error_map', Ht. cbn [option_map]. unfold track_object. cbn [o_valid]. now rewrite skipn_map.
    + rewrite nth_error_map', Ho. cbn [option_map].
      destruct (agent_lengths _ _ _ _ _ _ _ H Hag) as (_ & _ & _ & _ & _ & _ & _ & _ & L9).
      destruct Hag as (s & cur & _ & _ & _ & _ & _ & ->). unfold simulated_object. cbn [o_valid].
      rewrite skipn_app, map_length, firstn_length, L9. cbn [Nat.min Nat.sub].
      rewrite skipn_all2 by (rewrite map_length, firstn_length, L9; reflexivity). reflexivity.
  - apply mapM_inv in E1. destruct (Forall2_nth _ _ _ E1 _ _ Ho) as (kk & Hkk & Ek). exists kk. split; [exact Ek|].
    repeat split; apply after_entry; now rewrite nth_error_map', Hkk.
Qed.

Theorem displacement_rows {S} (X : extractors S) (sc : full_scenario S) js (b : bool) f : scorable (agents sc) js -> listing X ->
  compute_metric_features X sc js SIM_AGENTS b = Ok f ->
  forall k id s tr, nth_error (f_object_id f) k = Some id -> In s js -> sim_id s = id ->
    In tr (tracks (agents sc)) -> track_id tr = id ->
    (1 <= number_valid (firstn 11 (states tr)))%nat /\
    agent_entry (f_ade f) k
      (Some (total_error (sim_x s) (sim_y s) (sim_z s) (skipn 11 (states tr)) /
             INR (number_valid (firstn 11 (states tr)) + number_valid (skipn 11 (states tr))))).
Proof.
  intros H HX E k id s tr Hk Hs Es Htr Et. destruct (features_shape _ X sc js b H HX) as (ids & os & rest & trs & Ec & Hinc & Hev & Hid & F & G & P).
  rewrite Ec in E. destruct (assemble_inv X _ _ _ _ _ _ _ E) as (kin & ds & ttc & road & red & ade & E1 & _ & _ & _ & _ & (_ & E6) & ->).
  cbn [f_object_id f_ade] in *.
  assert (exists cur, nth_error (states tr) 10 = Some cur) as (cur & Hc).
  { destruct H as (((_ & _ & Hu) & Ln) & _). specialize (Hu tr Htr).
    destruct (nth_error (states tr) 10) as [c|] eqn:Q; [eauto|]. apply nth_error_None in Q. lia. }
  assert (sim_agent (agents sc) js b id (simulated_object tr cur s (if b then map s_valid (skipn 11 (states tr)) else repeat true 80)) tr) as Hag
    by (exists s, cur; repeat split; assumption).
  destruct (agent_number _ sc js b os trs k id _ tr H F Hk Hag) as (Ho & Ht).
  split; [apply (agent_valid_now _ _ _ _ _ _ _ H Hag)|].
  eexists. split; [reflexivity|]. rewrite E6, nth_error_map'.
  rewrite (nth_combine _ _ _ _ _ Ho (map_nth_error track_object _ _ Ht)). cbn [option_map]. f_equal.
  now apply (ade_value (agents sc) js b id s cur tr).
Qed.

Lemma future_mean_bound u h m : 0 <= u -> (1 <= m)%nat -> u / INR (h + m) <= u / INR m.
Proof.
  intros Hu Hm. assert (0 < INR m) by (apply lt_0_INR; lia). assert (INR m <= INR (h + m)) by (apply le_INR; lia).
  unfold Rdiv. apply Rmult_le_compat_l; [exact Hu|]. apply Rinv_le_contravar; assumption.
Qed.
