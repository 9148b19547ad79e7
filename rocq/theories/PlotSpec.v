(** What a plot of a map should show. Shared with the model: the features, the kinds of features and the figure. *)
From Coq Require Import String.
From Verif Require Import Base PlotModel.
Open Scope list_scope.
Open Scope Z_scope.

(** The kind of a feature by the documentation of the numbers, protos/map.proto; none for other numbers. *)
Definition kind {P} (d : feature_data P) : option feature_type :=
  match d with
  | Lane t _ => nth_error [UNKNOWN_FEATURE; FREEWAY_LANE; SURFACE_STREET_LANE; BIKE_LANE] (if t <? 0 then 4 else Z.to_nat t)
  | RoadLine t _ =>
      nth_error [UNKNOWN_FEATURE; BROKEN_SINGLE_WHITE_BOUNDARY; SOLID_SINGLE_WHITE_BOUNDARY; SOLID_DOUBLE_WHITE_BOUNDARY; BROKEN_SINGLE_YELLOW_BOUNDARY;
                 BROKEN_DOUBLE_YELLOW_BOUNDARY; SOLID_SINGLE_YELLOW_BOUNDARY; SOLID_DOUBLE_YELLOW_BOUNDARY; PASSING_DOUBLE_YELLOW_BOUNDARY]
             (if t <? 0 then 9 else Z.to_nat t)
  | RoadEdge t _ => nth_error [UNKNOWN_FEATURE; ROAD_EDGE_BOUNDARY; ROAD_EDGE_MEDIAN] (if t <? 0 then 3 else Z.to_nat t)
  | StopSign _ => Some STOP_SIGN
  | Crosswalk _ => Some CROSSWALK
  | SpeedBump _ => Some SPEED_BUMP
  | Driveway _ => Some DRIVEWAY
  | NotSet => None
  end.
(** A polygon closes at its first point. *)
Definition closed {P} (l : list P) : list P := match l with p :: _ => l ++ [p] | [] => [] end.
Definition path {P} (d : feature_data P) : list P :=
  match d with
  | Lane _ l | RoadLine _ l | RoadEdge _ l => l
  | StopSign p => [p]
  | Crosswalk l | SpeedBump l | Driveway l => closed l
  | NotSet => []
  end.
(** A polygon without points. *)
Definition broken {P} (f : map_feature P) : Prop :=
  match data f with Crosswalk [] | SpeedBump [] | Driveway [] => True | _ => False end.
(** A solid double yellow line. *)
Definition double_yellow {P} (f : map_feature P) : bool := match data f with RoadLine 7 _ => true | _ => false end.
(** The feature has something to draw and is not a solid double yellow line. *)
Definition visible {P} (f : map_feature P) : bool :=
  match kind (data f), path (data f) with Some _, _ :: _ => negb (double_yellow f) | _, _ => false end.

(** Colors and dashes. *)
Definition white_line (t : feature_type) : Prop := In t [BROKEN_SINGLE_WHITE_BOUNDARY; SOLID_SINGLE_WHITE_BOUNDARY; SOLID_DOUBLE_WHITE_BOUNDARY].
Definition yellow_line (t : feature_type) : Prop :=
  In t [BROKEN_SINGLE_YELLOW_BOUNDARY; BROKEN_DOUBLE_YELLOW_BOUNDARY; SOLID_SINGLE_YELLOW_BOUNDARY; SOLID_DOUBLE_YELLOW_BOUNDARY; PASSING_DOUBLE_YELLOW_BOUNDARY].
Definition broken_line (t : feature_type) : Prop :=
  In t [BROKEN_SINGLE_WHITE_BOUNDARY; BROKEN_SINGLE_YELLOW_BOUNDARY; BROKEN_DOUBLE_YELLOW_BOUNDARY; PASSING_DOUBLE_YELLOW_BOUNDARY].
Definition edge_line (t : feature_type) : Prop := In t [ROAD_EDGE_BOUNDARY; ROAD_EDGE_MEDIAN].
Definition has_color (t : feature_type) (c : string) : Prop :=
  (white_line t -> c = "lightgray"%string) /\ (yellow_line t -> c = "yellow"%string) /\ (edge_line t -> c = "green"%string)
  /\ (t = UNKNOWN_FEATURE -> c = "black"%string) /\ (t = FREEWAY_LANE -> c = "white"%string) /\ (t = SURFACE_STREET_LANE -> c = "royalblue"%string)
  /\ (t = BIKE_LANE -> c = "magenta"%string) /\ (t = STOP_SIGN -> c = "red"%string) /\ (t = CROSSWALK -> c = "orange"%string)
  /\ (t = SPEED_BUMP -> c = "cyan"%string) /\ (t = DRIVEWAY -> c = "blue"%string).
Definition has_dash (t : feature_type) (d : string) : Prop := (broken_line t -> d = "dash"%string) /\ (~ broken_line t -> d = "solid"%string).

(** The trace of a feature: its path in the color and dash of its kind. *)
Definition draws {P} (f : map_feature P) (tr : trace P) : Prop :=
  vals tr = path (data f) /\ exists t color dash, kind (data f) = Some t /\ has_color t color /\ has_dash t dash /\ look tr = Lines dash color (3 # 2).
(** The markers of a feature. *)
Definition marks {P} (f : map_feature P) (m : list (P * string)) : Prop :=
  exists t color, kind (data f) = Some t /\ has_color t color /\ m = map (fun p => (p, color)) (path (data f)).
(** Neighbours in a list differ. *)
Definition neighbours_differ {P} (fs : list (map_feature P)) : Prop :=
  forall a b pre post, fs = pre ++ a :: b :: post -> feature_id a <> feature_id b.

(** A stretch of points of one id, drawn by its first point. *)
Definition stretch {P} (g : list (P * feature_type * Z)) (tr : trace P) : Prop :=
  exists p t i, hd_error g = Some (p, t, i) /\ Forall (fun e => id_of e = i) g /\ vals tr = map point_of g
    /\ exists color dash, has_color t color /\ has_dash t dash /\ look tr = Lines dash color (3 # 2).
Definition first_id {P} (g : list (P * feature_type * Z)) : option Z := option_map id_of (hd_error g).
