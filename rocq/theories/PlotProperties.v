(** C126: plots of map features. *)
From Coq Require Import String.
From Verif Require Import Base PlotModel PlotSpec PlotProofs.
Open Scope list_scope.
Open Scope Z_scope.
(** The color of a kind of feature is unique. *)
Theorem C126_color t c c' : has_color t c -> has_color t c' -> c = c'.
Proof. exact (color_unique t c c'). Qed.
Print Assumptions C126_color.
(** So is its dash. *)
Theorem C126_dash t d d' : has_dash t d -> has_dash t d' -> d = d'.
Proof. exact (dash_unique t d d'). Qed.
Print Assumptions C126_dash.
(** Exactly when a map is plotted; otherwise IndexError. *)
Theorem C126_outcome : forall (P : Type) (fs : list (map_feature P)),
  ((exists fig, plot_map_features fs = Ok fig) <-> (forall f, In f fs -> ~ broken f) /\ exists f, In f fs /\ visible f = true)
  /\ (forall e, plot_map_features fs = Err e -> e = IndexError).
Proof. exact (plot_outcome ). Qed.
Print Assumptions C126_outcome.
(** One trace and one set of markers for every visible feature, in order. *)
Theorem C126_drawn : forall (P : Type) (fs : list (map_feature P)) fig, plot_map_features fs = Ok fig -> neighbours_differ (filter visible fs) ->
  Forall2 draws (filter visible fs) (traces fig) /\ exists ms, scatter fig = concat ms /\ Forall2 marks (filter visible fs) ms.
Proof. exact (features_drawn ). Qed.
Print Assumptions C126_drawn.
(** Unique ids are enough for it. *)
Theorem C126_unique : forall (P : Type) (fs : list (map_feature P)), NoDup (map feature_id fs) -> neighbours_differ (filter visible fs).
Proof. exact (unique_ids_differ ). Qed.
Print Assumptions C126_unique.
(** In general points are drawn in stretches of one id. *)
Theorem C126_grouped : forall (P : Type) (pts : list (P * feature_type * Z)), pts <> [] ->
  exists fig gs, plot_map_points pts = Ok fig /\ concat gs = pts /\ Forall2 stretch gs (traces fig)
    /\ (forall pre g g' post, gs = pre ++ g :: g' :: post -> first_id g <> first_id g').
Proof. exact (points_grouped ). Qed.
Print Assumptions C126_grouped.
(** Each point is marked in its color. *)
Theorem C126_marked : forall (P : Type) (pts : list (P * feature_type * Z)) fig, plot_map_points pts = Ok fig ->
  Forall2 (fun e m => fst m = point_of e /\ has_color (type_of e) (snd m)) pts (scatter fig).
Proof. exact (points_marked ). Qed.
Print Assumptions C126_marked.
(** A stop sign is not plotted as a larger point. *)
Theorem C126_stop_sign_refuted : exists (fs : list (map_feature Z)) fig tr, fs = [ {| feature_id := 1; data := StopSign 5 |} ] /\ plot_map_features fs = Ok fig /\ traces fig = [tr]
  /\ vals tr = [5] /\ exists color, look tr = Lines "solid" color (3 # 2) /\ forall size c, look tr <> Markers size c.
Proof. exact (stop_sign_refuted ). Qed.
Print Assumptions C126_stop_sign_refuted.
(** A solid double yellow line is not plotted at all. *)
Theorem C126_double_yellow_refuted : exists f g : map_feature Z, kind (data f) = Some SOLID_DOUBLE_YELLOW_BOUNDARY /\ path (data f) = [1; 2]
  /\ plot_map_features [f; g] = plot_map_features [g] /\ (exists fig, plot_map_features [g] = Ok fig) /\ plot_map_features [f] = Err IndexError.
Proof. exact (double_yellow_refuted ). Qed.
Print Assumptions C126_double_yellow_refuted.
(** A lane is not wider than other lines. *)
Theorem C126_lane_width_refuted : exists (f : map_feature Z) g fig tr tr', kind (data f) = Some FREEWAY_LANE /\ kind (data g) = Some DRIVEWAY /\ plot_map_features [f; g] = Ok fig
  /\ traces fig = [tr; tr'] /\ exists d c d' c', look tr = Lines d c (3 # 2) /\ look tr' = Lines d' c' (3 # 2).
Proof. exact (lane_width_refuted ). Qed.
Print Assumptions C126_lane_width_refuted.
(** Two features of one id are joined. *)
Theorem C126_same_id_refuted : exists (f g : map_feature Z) fig tr, feature_id f = feature_id g /\ kind (data f) <> kind (data g) /\ plot_map_features [f; g] = Ok fig /\ traces fig = [tr]
  /\ vals tr = path (data f) ++ path (data g).
Proof. exact (same_id_refuted ). Qed.
Print Assumptions C126_same_id_refuted.

(** A lane, a crosswalk and a driveway with different ids. *)
Example C126_nonvacuous :
  let fs := [ {| feature_id := 3; data := Lane 2 [1; 2; 3] |}; {| feature_id := 5; data := RoadLine 7 [9] |}; {| feature_id := 4; data := Crosswalk [4; 5; 6] |} ] in
  NoDup (map feature_id fs) /\ (forall f, In f fs -> ~ broken f) /\ (exists f, In f fs /\ visible f = true) /\ List.length (filter visible fs) = 2%nat
  /\ match plot_map_features fs with Ok fig => map vals (traces fig) = [[1; 2; 3]; [4; 5; 6; 4]] | Err _ => False end.
Proof.
  split; [repeat constructor; cbn; intuition discriminate|]. split; [intros f [<-|[<-|[<-|[]]]]; intros H; exact H|]. split; [eexists; split; [left; reflexivity|reflexivity]|]. split; reflexivity.
Qed.
