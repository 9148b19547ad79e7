(** C69: driving over red lights. *)
From Coq Require Import QArith ZArith List Bool.
From Verif Require Import Base LightModel LightSpec LightScene LightTrueProofs LightExamples.
From Verif Require GeomSceneSpec.
Import ListNotations.
Open Scope Q_scope.

(** A row for each evaluated object and an entry for each step. *)
Theorem C69_total : forall order num_steps objects mask lanes ids signals, lists_set order -> length mask = length objects ->
  (forall row, In row objects -> length row = num_steps) -> length lanes = length ids -> bounded lanes signals objects ->
  (exists lane, In lane lanes /\ (2 <= length lane)%nat) -> In true mask -> length signals = num_steps -> (2 <= num_steps)%nat ->
  exists out, compute_red_light_violation order num_steps objects mask lanes ids signals = Ok out /\
    length out = count_occ bool_dec mask true /\ forall x, In x out -> length x = num_steps.
Proof. exact light_total. Qed.
Print Assumptions C69_total.
Theorem C69_errors : forall order num_steps objects mask lanes ids signals,
  (lanes = [] \/ signals = [] \/ length lanes <> length ids \/ (forall lane, In lane lanes -> (length lane < 2)%nat) ->
     compute_red_light_violation order num_steps objects mask lanes ids signals = Err ValueError) /\
  (signals <> [] -> length lanes = length ids -> (exists lane, In lane lanes /\ (2 <= length lane)%nat) ->
     (forall m, In m mask -> m = false) \/ (length mask = length objects /\ In true mask /\ length signals <> num_steps) ->
     compute_red_light_violation order num_steps objects mask lanes ids signals = Err RuntimeError).
Proof. exact light_errors. Qed.
Print Assumptions C69_errors.
(** With one step the rows are empty. *)
Theorem C69_one_step : forall order objects mask lanes ids signals, length mask = length objects -> In true mask -> length signals = 1%nat ->
  length lanes = length ids -> (exists lane, In lane lanes /\ (2 <= length lane)%nat) ->
  exists out, compute_red_light_violation order 1 objects mask lanes ids signals = Ok out /\
    length out = count_occ bool_dec mask true /\ forall x, In x out -> x = [].
Proof. exact light_one_step. Qed.
Print Assumptions C69_one_step.

(** An entry is true exactly at a violation, whatever the order in which a set is listed. *)
Theorem C69_value : forall order num_steps objects mask lanes ids signals, lists_set order -> length mask = length objects ->
  (forall row, In row objects -> length row = num_steps) -> length lanes = length ids -> bounded lanes signals objects ->
  (exists lane, In lane lanes /\ (2 <= length lane)%nat) -> In true mask -> length signals = num_steps -> (2 <= num_steps)%nat ->
  forall out g row t, compute_red_light_violation order num_steps objects mask lanes ids signals = Ok out ->
  nth_error mask g = Some true -> nth_error objects g = Some row -> (t < num_steps)%nat ->
  exists b, cell_of out (GeomSceneSpec.row_of mask g) t = Some b /\ (b = true <-> violation (usable lanes ids) signals row t).
Proof. exact light_value. Qed.
Print Assumptions C69_value.
(** On a straight lane that no lane has more points than, with one stop point at both steps: a violation is to
    pass it along the lane while the light is red. *)
Theorem C69_straight : forall order num_steps objects mask lanes ids signals, lists_set order -> length mask = length objects ->
  (forall row, In row objects -> length row = num_steps) -> length lanes = length ids -> bounded lanes signals objects ->
  (exists lane, In lane lanes /\ (2 <= length lane)%nat) -> In true mask -> length signals = num_steps -> (2 <= num_steps)%nat ->
  forall out g row u q vq p vp id lane c s s', compute_red_light_violation order num_steps objects mask lanes ids signals = Ok out ->
  nth_error mask g = Some true -> nth_error objects g = Some row -> (S u < num_steps)%nat ->
  nth_error row u = Some (q, vq) -> nth_error row (S u) = Some (p, vp) -> drives_on (usable lanes ids) p id ->
  first_lane (usable lanes ids) id lane -> straight lane c -> (forall other, In other (usable lanes ids) -> (length (fst other) <= length lane)%nat) ->
  shown signals u id s' -> shown signals (S u) id s -> s_stop s' = s_stop s ->
  exists b, cell_of out (GeomSceneSpec.row_of mask g) (S u) = Some b /\
    (b = true <-> vp = true /\ red s /\ along q (s_stop s) c < 0 /\ 0 < along p (s_stop s) c).
Proof. exact straight_value. Qed.
Print Assumptions C69_straight.
(** The lane is the right one if the object is within [d] of a segment no longer than [h] and all lanes with
    other ids are farther than [d + 2 h]. *)
Theorem C69_lane : forall r p lane id k a b t d h, In (lane, id) r -> real_segment lane k a b -> 0 <= t <= 1 ->
  0 <= d -> 0 <= h -> dist2 p (between a b t) <= d * d -> dist2 a b <= h * h ->
  (forall lane' id' k' a' b' y, In (lane', id') r -> id' <> id -> counts r lane' k' a' b' -> 0 <= y <= 1 ->
     (d + 2 * h) * (d + 2 * h) < dist2 p (between a' b' y)) ->
  forall id', drives_on r p id' -> id' = id.
Proof. exact lane_found. Qed.
Print Assumptions C69_lane.

(** The red light of the nearest lane is missed; that of another lane is reported. *)
Theorem C69_nearest_refuted : exists order lanes ids signals p q out, lists_set order /\
  nearest_lane (usable lanes ids) q 1 /\ nearest_lane (usable lanes ids) p 1 /\
  (exists s, shown signals 0 1 s /\ shown signals 1 1 s /\ red s /\ along q (s_stop s) (1, 0) < 0 /\ 0 < along p (s_stop s) (1, 0)) /\
  (exists lane, first_lane (usable lanes ids) 1 lane /\ straight lane (1, 0)) /\
  compute_red_light_violation order 2 [drive q p] [true] lanes ids signals = Ok out /\ cell_of out 0 1 = Some false.
Proof. exact missed. Qed.
Print Assumptions C69_nearest_refuted.
Theorem C69_other_lane_refuted : exists order lanes ids signals p q out, lists_set order /\
  nearest_lane (usable lanes ids) q 1 /\ nearest_lane (usable lanes ids) p 1 /\
  (forall t l s, nth_error signals t = Some l -> In s l -> s_lane s <> 1%Z) /\
  compute_red_light_violation order 2 [drive q p] [true] lanes ids signals = Ok out /\ cell_of out 0 1 = Some true.
Proof. exact spurious. Qed.
Print Assumptions C69_other_lane_refuted.
(** A far lane without a signal hides a violation if it has more points. *)
Theorem C69_padding_refuted : exists order lanes ids lane id signals p q out out', lists_set order /\
  (forall x, In x lane -> 900 <= fst x /\ 900 <= snd x) /\ ~ In id ids /\ (forall l s, In l signals -> In s l -> s_lane s <> id) /\
  (- (100) <= fst p <= 100 /\ - (100) <= snd p <= 100) /\ (- (100) <= fst q <= 100 /\ - (100) <= snd q <= 100) /\
  compute_red_light_violation order 2 [drive q p] [true] lanes ids signals = Ok out /\ cell_of out 0 1 = Some true /\
  compute_red_light_violation order 2 [drive q p] [true] (lanes ++ [lane]) (ids ++ [id]) signals = Ok out' /\ cell_of out' 0 1 = Some false.
Proof. exact padding. Qed.
Print Assumptions C69_padding_refuted.
(** An object that was already ahead of the stop point violates a light that is listed from then on. *)
Theorem C69_unlisted_refuted : exists order lanes ids signals p q s out, lists_set order /\
  (exists lane, first_lane (usable lanes ids) 1 lane /\ straight lane (1, 0)) /\
  nth_error signals 0 = Some [] /\ nth_error signals 1 = Some [s] /\ s_lane s = 1%Z /\
  0 < along q (s_stop s) (1, 0) /\
  compute_red_light_violation order 2 [drive q p] [true] lanes ids signals = Ok out /\ cell_of out 0 1 = Some true.
Proof. exact unlisted. Qed.
Print Assumptions C69_unlisted_refuted.

(** A scene within the bounds with a reported violation, and one with none. *)
Example C69_bounded_example : bounded [road_lane; far_lane] [[stop_signal 1 (11, 0)]; [stop_signal 1 (11, 0)]] [drive (10, 0) (12, 0)].
Proof. exact scene_bounded. Qed.
Example C69_reported_example : compute_red_light_violation set_of 2 [drive (10, 0) (12, 0)] [true] [road_lane; far_lane] [1%Z; 2%Z]
  [[stop_signal 1 (11, 0)]; [stop_signal 1 (11, 0)]] = Ok [[false; true]].
Proof. vm_compute. reflexivity. Qed.
Example C69_green_example : compute_red_light_violation set_of 2 [drive (10, 0) (12, 0)] [true] [road_lane; far_lane] [1%Z; 2%Z]
  [[stop_signal 1 (11, 0)]; [{| s_lane := 1; s_state := 6; s_stop := (11, 0) |}]] = Ok [[false; false]].
Proof. vm_compute. reflexivity. Qed.
