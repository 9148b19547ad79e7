(** Specification of the motion metrics op. *)
From Coq Require Import String.
From Verif Require Import Base MotionModel BreakdownModel MotionOpModel.
From Verif Require ParseModel.
Open Scope list_scope.
Open Scope Z_scope.

(** Names of the types that have rows, and the name of a row. *)
Definition type_text (t : Z) : string :=
  if t =? 1 then "TYPE_VEHICLE" else if t =? 2 then "TYPE_PEDESTRIAN" else if t =? 3 then "TYPE_CYCLIST" else "".
Definition row_name (dec : Z -> string) (t s : Z) : string := (type_text t ++ "_" ++ dec s)%string.

(** The track of an object: of the tracks to predict with its id the last listed. *)
Definition object_track (s : scenario) (id : Z) (tr : track) : Prop :=
  exists a i b, sc_predict s = a ++ i :: b /\ 0 <= i /\ nth_error (sc_tracks s) (Z.to_nat i) = Some tr /\ tr_id tr = id /\
    forall i' tr', In i' b -> 0 <= i' -> nth_error (sc_tracks s) (Z.to_nat i') = Some tr' -> tr_id tr' <> id.
(** Object types from the least to the most important: unset, other, vehicle, pedestrian, cyclist. *)
Definition importance (t : Z) : Z := if t =? 4 then 1 else if t =? 0 then 0 else t + 1.
(** The type of a joint prediction: that of its most important object. *)
Definition main_type (s : scenario) (ts : list traj) (t : Z) : Prop :=
  (exists tj tr, In tj ts /\ object_track s (tj_id tj) tr /\ tr_type tr = t) /\
  forall tj tr, In tj ts -> object_track s (tj_id tj) tr -> 0 <= tr_type tr <= 4 /\ importance (tr_type tr) <= importance t.
(** A prediction set is counted if neither it nor an earlier one of the scenario begins without trajectories. *)
Definition begins (m : mmp) : Prop := exists j rest t ts, m = j :: rest /\ jt_trajs j = t :: ts.
Definition counted (p : preds) (m : mmp) : Prop :=
  exists a b, pr_mms p = a ++ m :: b /\ begins m /\ forall x, In x a -> begins x.
(** Some counted prediction set is about objects of type [t]. *)
Definition measured (l : list (preds * scenario)) (t : Z) : Prop :=
  exists p s m j rest, In (p, s) l /\ counted p m /\ m = j :: rest /\ main_type s (jt_trajs j) t.

Definition same_row (a b : row) : Prop :=
  (min_ade a == min_ade b)%Q /\ (min_fde a == min_fde b)%Q /\ (out_miss_rate a == out_miss_rate b)%Q /\
  (out_overlap_rate a == out_overlap_rate b)%Q /\ (mean_average_precision a == mean_average_precision b)%Q.
(** The scenarios with their predictions as ComputeMotionMetrics takes them. *)
Definition evaluated (l : list (preds * scenario)) : list (preds * option scenario) := map (fun ps => (fst ps, Some (snd ps))) l.
(** The metrics of type [t] at step [s] among the results of ComputeMotionMetrics. *)
Definition bundle_of (bs : list bundle) (t s : Z) (b : bundle) : Prop := In b bs /\ b_type b = t /\ b_step b = s.
(** A row with the metrics of a bundle. *)
Definition shows (r : row) (b : bundle) : Prop :=
  min_ade r = b_ade b /\ min_fde r = b_fde b /\ out_miss_rate r = b_miss b /\ out_overlap_rate r = b_overlap b /\ mean_average_precision r = b_map b.
(** A row without metrics. *)
Definition blank (r : row) : Prop :=
  min_ade r = (-1)%Q /\ min_fde r = (-1)%Q /\ out_miss_rate r = (-1)%Q /\ out_overlap_rate r = (-1)%Q /\ mean_average_precision r = (-1)%Q.
(** Row [r] is that of type [t] and step [s]. *)
Definition right_row (l : list (preds * scenario)) (bs : list bundle) (t s : Z) (r : row) : Prop :=
  (measured l t /\ exists b, bundle_of bs t s b /\ (forall b', bundle_of bs t s b' -> b' = b) /\ shows r b) \/ (~ measured l t /\ blank r).
(** The metrics read what was parsed. *)
Definition reads_state (a : ParseModel.state) (b : state) : Prop :=
  st_x b = ParseModel.s_x a /\ st_y b = ParseModel.s_y a /\ st_heading b = ParseModel.s_heading a /\ st_vx b = ParseModel.s_vx a /\
  st_vy b = ParseModel.s_vy a /\ st_len b = ParseModel.s_length a /\ st_wid b = ParseModel.s_width a /\ st_valid b = ParseModel.s_valid a.
Definition reads_track (a : ParseModel.track) (b : track) : Prop :=
  tr_id b = ParseModel.t_id a /\ tr_type b = ParseModel.t_type a /\ Forall2 reads_state (ParseModel.t_states a) (tr_states b).
Definition reads_scenario (a : ParseModel.scenario) (b : scenario) : Prop :=
  sc_id b = ParseModel.sc_id a /\ Forall2 reads_track (ParseModel.sc_tracks a) (sc_tracks b) /\ Forall2 (fun x i => i = fst x) (ParseModel.sc_required a) (sc_predict b).
Definition reads_traj (a : ParseModel.trajectory) (b : traj) : Prop :=
  tj_id b = ParseModel.tj_object a /\ tj_x b = ParseModel.tj_x a /\ tj_y b = ParseModel.tj_y a.
Definition reads_joint (a : ParseModel.joint) (b : joint) : Prop :=
  jt_conf b = ParseModel.jt_confidence a /\ Forall2 reads_traj (ParseModel.jt_trajectories a) (jt_trajs b).
Definition reads_predictions (a : ParseModel.predictions) (b : preds) : Prop :=
  pr_id b = ParseModel.pr_id a /\ Forall2 (Forall2 reads_joint) (ParseModel.pr_groups a) (pr_mms b).
