(** C81, C82, C83: occupancy and flow grids, and how well boxes are covered. *)
From Coq Require Import Reals List Arith ZArith Lra.
From Verif Require Import Base WayModel OccModel OccSpec.
From Verif Require OccRender OccFlow OccCover OccWitness.
Import ListNotations.
Open Scope R_scope.

(** A grid of a class holds one where one of its wanted, valid agents has a sample, and zero elsewhere. *)
Theorem C81_occupancy : forall c sc ts obs occ,
  sampled c -> complete c ts sc -> (In Future ts -> obs = true \/ occ = true) ->
  exists g, render_occupancy_from_inputs c sc ts obs occ = Ok g /\
    forall class h, view g class = Ok h -> forall r q t, in_grid c r q ->
      (h r q t = 1 /\ occupies c sc ts obs occ class r q t) \/ (h r q t = 0 /\ ~ occupies c sc ts obs occ class r q t).
Proof. exact OccRender.occupancy_value. Qed.
Print Assumptions C81_occupancy.

(** Any other request is refused, for occupancy and for flow. *)
Theorem C81_refuses : forall c sc ts obs occ,
  ~ (sampled c /\ complete c ts sc /\ (In Future ts -> obs = true \/ occ = true)) ->
  render_occupancy_from_inputs c sc ts obs occ = Err ValueError /\ render_flow_from_inputs c sc ts obs occ = Err ValueError.
Proof. exact OccRender.occupancy_refused. Qed.
Print Assumptions C81_refuses.

(** The grids of observed and of hidden agents together are the grid of all; no agent is in both. *)
Theorem C81_split : forall c sc g go gh, sampled c -> complete c [Future] sc ->
  render_occupancy_from_inputs c sc [Future] true true = Ok g ->
  render_occupancy_from_inputs c sc [Future] true false = Ok go ->
  render_occupancy_from_inputs c sc [Future] false true = Ok gh ->
  forall class h ho hh, view g class = Ok h -> view go class = Ok ho -> view gh class = Ok hh ->
  forall r q t, in_grid c r q -> h r q t = Rmax (ho r q t) (hh r q t).
Proof. exact OccRender.grids_split. Qed.
Print Assumptions C81_split.
Theorem C81_disjoint : forall ts a, In Future ts -> ~ (wanted ts true false a /\ wanted ts false true a).
Proof. exact OccRender.wanted_one. Qed.
Print Assumptions C81_disjoint.

(** Grids turned with the vehicle do not depend on where the world is put. *)
Theorem C81_moved : forall c angle dx dy sc ts obs occ g, normalize_sdc_yaw c = true ->
  render_occupancy_from_inputs c sc ts obs occ = Ok g ->
  exists g', render_occupancy_from_inputs c (move_scene angle dx dy sc) ts obs occ = Ok g' /\
    forall class h h', view g class = Ok h -> view g' class = Ok h' -> forall r q t, in_grid c r q -> h' r q t = h r q t.
Proof. exact OccRender.grids_moved. Qed.
Print Assumptions C81_moved.

(** What is straight ahead of the vehicle is straight above it in the grid. *)
Theorem C81_ahead : forall c sc d r q, normalize_sdc_yaw c = true ->
  falls_in c sc (sdc_x sc + d * cos (sdc_yaw sc), sdc_y sc + d * sin (sdc_yaw sc)) r q <->
  q = sdc_x_in_grid c /\ nearest (- (d * pixels_per_meter c)) (r - sdc_y_in_grid c).
Proof. exact OccCover.ahead. Qed.
Print Assumptions C81_ahead.

(** An agent out of sight at present, but seen before, is rendered as observed. *)
Theorem C81_observed_now_refuted : exists c sc a r q t,
  sampled c /\ complete c [Future] sc /\ agents sc = [a] /\ ~ observed_now a /\
  occupies c sc [Future] true false (agent_type a) r q t /\ ~ occupies c sc [Future] false true (agent_type a) r q t.
Proof.
  exact (ex_intro _ OccCover.small_config (ex_intro _ OccCover.lost_scene (ex_intro _ OccCover.lost (ex_intro _ 1%Z (ex_intro _ 2%Z (ex_intro _ 0%nat
    (conj (proj1 OccCover.small_case) (conj (proj2 (proj2 OccCover.small_case)) (conj eq_refl OccCover.lost_observed))))))))).
Qed.
Print Assumptions C81_observed_now_refuted.

(** The road graph is shown where a valid point falls. *)
Theorem C81_roadgraph : forall c sc points, exists g, render_roadgraph_from_inputs c sc points = Ok g /\
  forall r q, in_grid c r q ->
    (g r q = 1 /\ exists p, In (p, true) points /\ falls_in c sc p r q) \/
    (g r q = 0 /\ forall p, In (p, true) points -> ~ falls_in c sc p r q).
Proof. exact OccCover.roadgraph. Qed.
Print Assumptions C81_roadgraph.

(** The flow of a cell is the mean displacement of the samples that end there, each counted once. *)
Theorem C82_flow : forall c sc ts obs occ size,
  sampled c -> complete c ts sc -> (In Future ts -> obs = true \/ occ = true) ->
  (0 < num_waypoints (task c))%nat -> (num_future_steps (task c) / num_waypoints (task c) = size)%nat -> (0 < size <= num_steps c ts)%nat ->
  exists g, render_flow_from_inputs c sc ts obs occ = Ok g /\
    forall class h, view g class = Ok h -> forall r q t, in_grid c r q ->
      exists l, NoDup (map fst l) /\ (forall k d, In (k, d) l <-> contributes c sc ts obs occ size class r q t k d) /\
        h r q t = mean_displacement (map snd l).
Proof. exact OccFlow.flow_value. Qed.
Print Assumptions C82_flow.

(** If they all moved alike, the flow leads back to a cell that was occupied, from one that is. *)
Theorem C82_back : forall c sc ts obs occ size,
  sampled c -> complete c ts sc -> (In Future ts -> obs = true \/ occ = true) ->
  (0 < num_waypoints (task c))%nat -> (num_future_steps (task c) / num_waypoints (task c) = size)%nat -> (0 < size <= num_steps c ts)%nat ->
  forall g class h r q t d, render_flow_from_inputs c sc ts obs occ = Ok g -> view g class = Ok h -> in_grid c r q ->
  (exists k, contributes c sc ts obs occ size class r q t k d) ->
  (forall k e, contributes c sc ts obs occ size class r q t k e -> e = d) ->
  h r q t = (IZR (fst d), IZR (snd d)) /\
  occupies c sc ts obs occ class (r + snd d) (q + fst d) t /\ occupies c sc ts obs occ class r q (t + size).
Proof. exact OccFlow.flow_back. Qed.
Print Assumptions C82_back.

(** Where nothing ends that was valid at both times, there is no flow. *)
Theorem C82_none : forall c sc ts obs occ size,
  sampled c -> complete c ts sc -> (In Future ts -> obs = true \/ occ = true) ->
  (0 < num_waypoints (task c))%nat -> (num_future_steps (task c) / num_waypoints (task c) = size)%nat -> (0 < size <= num_steps c ts)%nat ->
  forall g class h r q t, render_flow_from_inputs c sc ts obs occ = Ok g -> view g class = Ok h -> in_grid c r q ->
  (forall k d, ~ contributes c sc ts obs occ size class r q t k d) -> h r q t = (0, 0).
Proof. exact OccFlow.flow_none. Qed.
Print Assumptions C82_none.

(** A box is covered without holes if the diagonal between its samples is shorter than a pixel. *)
Theorem C83_covered : forall c sc s r q,
  (2 <= points_per_side_length c)%nat -> (2 <= points_per_side_width c)%nat -> 0 < pixels_per_meter c -> 0 <= box_length s -> 0 <= box_width s ->
  (box_length s * pixels_per_meter c / INR (points_per_side_length c - 1)) ^ 2 +
  (box_width s * pixels_per_meter c / INR (points_per_side_width c - 1)) ^ 2 < 1 ->
  in_box c sc s r q -> marks c sc s r q.
Proof. exact OccCover.coverage. Qed.
Print Assumptions C83_covered.

(** With the default settings a bus of eighteen metres has holes. *)
Theorem C83_covered_refuted : exists sc s r q,
  In s (states [Past; Current; Future] (hd OccCover.lost (agents sc))) /\ box_length s = 18 /\ valid s = true /\
  in_grid OccCover.default_config r q /\ in_box OccCover.default_config sc s r q /\ ~ marks OccCover.default_config sc s r q.
Proof.
  exact (ex_intro _ OccCover.bus_scene (ex_intro _ OccCover.bus (ex_intro _ 192%Z (ex_intro _ 101%Z
    (conj (or_introl eq_refl) (conj eq_refl (conj eq_refl OccCover.bus_hole))))))).
Qed.
Print Assumptions C83_covered_refuted.

(** Cases that meet the hypotheses. *)
Example C81_case : sampled OccCover.small_config /\ complete OccCover.small_config [Past; Current; Future] OccCover.lost_scene /\
  complete OccCover.small_config [Future] OccCover.lost_scene.
Proof. exact OccCover.small_case. Qed.
Example C82_case :
  (sampled OccCover.small_config /\ complete OccCover.small_config [Past; Current; Future] OccWitness.mover_scene) /\ in_grid OccCover.small_config 1 2 /\
  (exists k, contributes OccCover.small_config OccWitness.mover_scene [Past; Current; Future] true true 1 1 1 2 1 k (-1, 0)%Z) /\
  (forall k e, contributes OccCover.small_config OccWitness.mover_scene [Past; Current; Future] true true 1 1 1 2 1 k e -> e = (-1, 0)%Z).
Proof. exact OccWitness.mover_case. Qed.
Example C83_case :
  (box_length OccCover.car * pixels_per_meter OccCover.default_config / INR (points_per_side_length OccCover.default_config - 1)) ^ 2 +
  (box_width OccCover.car * pixels_per_meter OccCover.default_config / INR (points_per_side_width OccCover.default_config - 1)) ^ 2 < 1.
Proof. exact OccCover.car_case. Qed.
