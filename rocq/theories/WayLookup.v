From Coq Require Import Reals List Arith Lra Lia Bool ZArith.
From Verif Require Import Base ResultLib ListLib WayModel WaySpec WayProofs WayFlow.
Import ListNotations.
Open Scope R_scope.

Lemma flow_value c size t w : can_split c size -> (0 < num_future_steps c)%nat ->
  for_all_classes (well_shaped c size) t -> create_ground_truth_waypoint_grids c t = Ok w ->
  for_each_class (fun t w => forall k, (k < num_waypoints c)%nat ->
    nth_error (flow w) k = Some
      (if cumulative_waypoints c then
         let steps := window (0, 0) (all_flow t) (num_past_steps c + 1 - size + k * size) size in
         (mean_where (fun v => nonzero (fst v)) fst steps, mean_where (fun v => nonzero (snd v)) snd steps)
       else nth (num_past_steps c + k * size) (all_flow t) (0, 0))) t w.
Proof.
  intros Split F Sh M. apply (by_class c size t w Split F Sh M). intros u x L (A & B & C & D) k K.
  rewrite D. rewrite nth_error_map.
  rewrite (nth_error_nth' (seq 0 (num_waypoints c)) 0%nat) by (rewrite seq_length; exact K).
  rewrite seq_nth by exact K. cbn [option_map Nat.add]. f_equal. unfold flow_shown. cbn zeta.
  pose proof (size_pos c size Split F) as S0. destruct Split as (_ & _ & P).
  destruct (cumulative_waypoints c); [apply mean_flow_value|]. f_equal. lia.
Qed.

Lemma accepts_iff c t : (0 < num_future_steps c)%nat -> (forall size, can_split c size -> for_all_classes (well_shaped c size) t) ->
  ((exists w, create_ground_truth_waypoint_grids c t = Ok w) <-> exists size, can_split c size).
Proof.
  intros F Sh. split.
  - intros (w & W).
    destruct (Nat.eq_dec (num_waypoints c) 0) as [E|E].
    + exfalso. unfold create_ground_truth_waypoint_grids in W. rewrite E in W. discriminate W.
    + exists (num_future_steps c / num_waypoints c)%nat. unfold create_ground_truth_waypoint_grids in W.
      destruct (Nat.eqb_spec (num_waypoints c) 0) as [E'|_]; [contradiction|].
      destruct (Nat.eqb_spec (num_future_steps c mod num_waypoints c) 0) as [M|M]; cbn [negb] in W; [|discriminate W].
      destruct (Nat.ltb_spec (num_past_steps c + 1) (num_future_steps c / num_waypoints c)) as [L|L]; [discriminate W|].
      split; [lia|]. split; [|exact L]. pose proof (Nat.div_mod (num_future_steps c) (num_waypoints c) E). lia.
  - intros (size & S). destruct (create_ok c size S F t (Sh size S)) as (w & W & _). eauto.
Qed.

(** Reading a waypoint. *)
Lemma index_nat {A} e (l : list A) k : index e l (Z.of_nat k) = match nth_error l k with Some x => Ok x | None => Err e end.
Proof.
  unfold index. destruct (Z.ltb_spec (Z.of_nat k) 0); [lia|]. destruct (Z.ltb_spec (Z.of_nat k) 0); [lia|].
  now rewrite Nat2Z.id.
Qed.
Lemma lookup {A} (get : waypoint_grids -> list A) w n k : (0 < n)%nat ->
  for_all_classes (fun g => length (get g) = n) w ->
  ((k < n)%nat -> exists r, at_waypoint get w (Z.of_nat k) = Ok r /\ for_each_class (fun g x => nth_error (get g) k = x /\ x <> None) w r) /\
  ((n <= k)%nat -> at_waypoint get w (Z.of_nat k) = Err IndexError).
Proof.
  intros N (LV & LP & LC). unfold at_waypoint.
  destruct (get (vehicles w)) as [|v0 v] eqn:V; [cbn in LV; lia|].
  destruct (get (pedestrians w)) as [|p0 p] eqn:P; [cbn in LP; lia|].
  destruct (get (cyclists w)) as [|y0 y] eqn:C; [cbn in LC; lia|].
  rewrite !index_nat. split; intro K.
  - assert (HV : exists x, nth_error (v0 :: v) k = Some x) by (destruct (nth_error (v0 :: v) k) eqn:E; [eauto|apply nth_error_None in E; lia]).
    assert (HP : exists x, nth_error (p0 :: p) k = Some x) by (destruct (nth_error (p0 :: p) k) eqn:E; [eauto|apply nth_error_None in E; lia]).
    assert (HC : exists x, nth_error (y0 :: y) k = Some x) by (destruct (nth_error (y0 :: y) k) eqn:E; [eauto|apply nth_error_None in E; lia]).
    destruct HV as (a & HV), HP as (b & HP), HC as (d & HC). rewrite HV, HP, HC. cbn [bind].
    eexists. split; [reflexivity|]. unfold for_each_class. cbn [vehicles pedestrians cyclists].
    rewrite V, P, C. repeat split; try assumption; discriminate.
  - rewrite (proj2 (nth_error_None (v0 :: v) k)) by lia. reflexivity.
Qed.

(** Each component of a cumulative flow lies within the values of that component in the moving steps. *)
Lemma component_within keep f l m M :
  (exists v, In v l /\ keep v = true) -> (forall v, In v l -> keep v = true -> m <= f v <= M) -> m <= mean_where keep f l <= M.
Proof. exact (mean_where_bounds keep f l m M). Qed.

(** Reading a class. *)
Lemma view_ok {A} (g : classes A) z : (exists x, view g z = Ok x) <-> (z = 1 \/ z = 2 \/ z = 3)%Z.
Proof.
  unfold view. destruct (Z.eqb_spec z 1), (Z.eqb_spec z 2), (Z.eqb_spec z 3); split; intro H; try lia; eauto; destruct H; discriminate.
Qed.

(** A case: one past step, four future steps in two waypoints. *)
Definition c0 (cum : bool) : config := {| num_past_steps := 1; num_future_steps := 4; num_waypoints := 2; cumulative_waypoints := cum |}.
Definition t0 : timestep_grids :=
  {| current_occupancy := [1]; past_occupancy := [0]; future_observed_occupancy := [1; 0; 0; 0]; future_occluded_occupancy := [0; 0; 1; 1];
     all_flow := [(0, 0); (3, 0); (0, 4); (1, 1)]; all_occupancy := [0; 1; 1; 0; 1; 1] |}.
Definition all0 : classes timestep_grids := {| vehicles := t0; pedestrians := t0; cyclists := t0 |}.
Lemma case_shaped cum : can_split (c0 cum) 2 /\ for_all_classes (well_shaped (c0 cum) 2) all0.
Proof. split; [unfold can_split; cbn; lia|]. repeat split; reflexivity. Qed.

Lemma flow_mean_refuted : exists steps,
  Forall (fun v => speed v < speed (mean_flow steps)) steps /\ steps <> [] /\
  mean_flow steps <> (mean_where moving fst steps, mean_where moving snd steps).
Proof.
  exists [(3, 0); (0, 4)]. destruct mean_flow_fast as (_ & A & B). split; [exact A|]. split; [discriminate|exact B].
Qed.
