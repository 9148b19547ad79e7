(** Plots of map features: utils/plot_maps.py. A plot is the data handed to the plotting library: one colored marker for
    each point, then the traces. The layout of the figure (184-217) is not modelled. A point is any value. *)
From Coq Require Import String.
From Verif Require Import Base ResultLib.
Open Scope list_scope.
Open Scope Z_scope.

(** FeatureType (29-48). *)
Inductive feature_type :=
| UNKNOWN_FEATURE | FREEWAY_LANE | SURFACE_STREET_LANE | BIKE_LANE
| BROKEN_SINGLE_WHITE_BOUNDARY | SOLID_SINGLE_WHITE_BOUNDARY | SOLID_DOUBLE_WHITE_BOUNDARY
| BROKEN_SINGLE_YELLOW_BOUNDARY | BROKEN_DOUBLE_YELLOW_BOUNDARY | SOLID_SINGLE_YELLOW_BOUNDARY | SOLID_DOUBLE_YELLOW_BOUNDARY
| PASSING_DOUBLE_YELLOW_BOUNDARY | ROAD_EDGE_BOUNDARY | ROAD_EDGE_MEDIAN | STOP_SIGN | CROSSWALK | SPEED_BUMP | DRIVEWAY.
(** The members of FeatureType are plain enum.Enum members: such a member is never equal to a number (148-151). *)
Definition equals_number (t : feature_type) (n : Z) : bool := false.

(** line_dict (82-101). *)
Definition line_dict (t : feature_type) : string * string :=
  match t with
  | UNKNOWN_FEATURE => ("black", "solid")
  | FREEWAY_LANE => ("white", "solid")
  | SURFACE_STREET_LANE => ("royalblue", "solid")
  | BIKE_LANE => ("magenta", "solid")
  | BROKEN_SINGLE_WHITE_BOUNDARY => ("lightgray", "dash")
  | SOLID_SINGLE_WHITE_BOUNDARY => ("lightgray", "solid")
  | SOLID_DOUBLE_WHITE_BOUNDARY => ("lightgray", "solid")
  | BROKEN_SINGLE_YELLOW_BOUNDARY => ("yellow", "dash")
  | BROKEN_DOUBLE_YELLOW_BOUNDARY => ("yellow", "dash")
  | SOLID_SINGLE_YELLOW_BOUNDARY => ("yellow", "solid")
  | SOLID_DOUBLE_YELLOW_BOUNDARY => ("yellow", "solid")
  | PASSING_DOUBLE_YELLOW_BOUNDARY => ("yellow", "dash")
  | ROAD_EDGE_BOUNDARY => ("green", "solid")
  | ROAD_EDGE_MEDIAN => ("green", "solid")
  | STOP_SIGN => ("red", "solid")
  | CROSSWALK => ("orange", "solid")
  | SPEED_BUMP => ("cyan", "solid")
  | DRIVEWAY => ("blue", "solid")
  end%string.

Section Plot.
Context {P : Type}.
(** MapPoints (51-70): one entry for each point, in place of five lists of one length. *)
Definition map_points := list (P * feature_type * Z).
Definition point_of (e : P * feature_type * Z) : P := fst (fst e).
Definition type_of (e : P * feature_type * Z) : feature_type := snd (fst e).
Definition id_of (e : P * feature_type * Z) : Z := snd e.

(** go.Scatter3d (152-177). *)
Inductive style := Markers (size : Q) (color : string) | Lines (dash color : string) (width : Q).
Record trace := { vals : list P; look : style }.
Record figure := { scatter : list (P * string); traces : list trace }.

(** The inner loop (140-141): the points up to the first with another id. *)
Fixpoint advance (feature_id : Z) (pts : map_points) : map_points * map_points :=
  match pts with
  | e :: pts' => if id_of e =? feature_id then let '(run, rest) := advance feature_id pts' in (e :: run, rest) else ([], pts)
  | [] => ([], [])
  end.
(** 143-177, one trace. *)
Definition make_trace (run : map_points) (point_type : feature_type) : trace :=
  let width := if equals_number point_type 1 || equals_number point_type 2 || equals_number point_type 3 then 5 # 2 else 3 # 2 in
  {| vals := map point_of run;
     look := if equals_number point_type 17 then Markers 4 (fst (line_dict point_type))
             else Lines (snd (line_dict point_type)) (fst (line_dict point_type)) width |}.
(** The outer loop (139-183), on the points not yet drawn. *)
Fixpoint trace_loop (fuel : nat) (pts : map_points) (point_type : feature_type) (feature_id : Z) : result (list trace) :=
  match pts with
  | [] => Ok []
  | _ :: _ =>
      match fuel with
      | O => Err OutOfFuel
      | S fuel' =>
          let '(run, rest) := advance feature_id pts in
          do more <- match rest with
                     | e :: _ => trace_loop fuel' rest (type_of e) (id_of e)
                     | [] => Ok []
                     end;
          Ok (make_trace run point_type :: more)
      end
  end.
(** plot_map_points (72-219): types[0] (130-131) fails without points. *)
Definition plot_map_points (pts : map_points) : result figure :=
  match pts with
  | [] => Err IndexError
  | e :: _ =>
      do ts <- trace_loop (List.length pts) pts (type_of e) (id_of e);
      Ok {| scatter := map (fun e => (point_of e, fst (line_dict (type_of e)))) pts; traces := ts |}
  end.

(** MapFeature.feature_data (protos/map.proto); the enumerations as numbers. *)
Inductive feature_data :=
| Lane (type : Z) (polyline : list P)
| RoadLine (type : Z) (polyline : list P)
| RoadEdge (type : Z) (polyline : list P)
| StopSign (position : P)
| Crosswalk (polygon : list P)
| SpeedBump (polygon : list P)
| Driveway (polygon : list P)
| NotSet.
Record map_feature := { feature_id : Z; data : feature_data }.

(** 233-238. *)
Definition lane_types (t : Z) : option feature_type :=
  match t with 0 => Some UNKNOWN_FEATURE | 1 => Some FREEWAY_LANE | 2 => Some SURFACE_STREET_LANE | 3 => Some BIKE_LANE | _ => None end.
(** 239-264: there is no entry for TYPE_SOLID_DOUBLE_YELLOW, 7. *)
Definition road_line_types (t : Z) : option feature_type :=
  match t with
  | 0 => Some UNKNOWN_FEATURE | 1 => Some BROKEN_SINGLE_WHITE_BOUNDARY | 2 => Some SOLID_SINGLE_WHITE_BOUNDARY | 3 => Some SOLID_DOUBLE_WHITE_BOUNDARY
  | 4 => Some BROKEN_SINGLE_YELLOW_BOUNDARY | 5 => Some BROKEN_DOUBLE_YELLOW_BOUNDARY | 6 => Some SOLID_SINGLE_YELLOW_BOUNDARY
  | 8 => Some PASSING_DOUBLE_YELLOW_BOUNDARY | _ => None
  end.
(** 265-269. *)
Definition road_edge_types (t : Z) : option feature_type :=
  match t with 0 => Some UNKNOWN_FEATURE | 1 => Some ROAD_EDGE_BOUNDARY | 2 => Some ROAD_EDGE_MEDIAN | _ => None end.

(** add_points (271-284). *)
Definition add_points (id : Z) (points : list P) (t : option feature_type) (is_polygon : bool) (pts : map_points) : result map_points :=
  match t with
  | None => Ok pts
  | Some t =>
      let pts := pts ++ map (fun p => (p, t, id)) points in
      if is_polygon then match points with p :: _ => Ok (pts ++ [(p, t, id)]) | [] => Err IndexError end
      else Ok pts
  end.
(** 289-337. *)
Definition add_feature (pts : map_points) (f : map_feature) : result map_points :=
  match data f with
  | Lane t ps => add_points (feature_id f) ps (lane_types t) false pts
  | RoadLine t ps => add_points (feature_id f) ps (road_line_types t) false pts
  | RoadEdge t ps => add_points (feature_id f) ps (road_edge_types t) false pts
  | StopSign p => add_points (feature_id f) [p] (Some STOP_SIGN) false pts
  | Crosswalk ps => add_points (feature_id f) ps (Some CROSSWALK) true pts
  | SpeedBump ps => add_points (feature_id f) ps (Some SPEED_BUMP) true pts
  | Driveway ps => add_points (feature_id f) ps (Some DRIVEWAY) true pts
  | NotSet => Ok pts
  end.
(** plot_map_features (222-340). *)
Definition plot_map_features (fs : list map_feature) : result figure :=
  do pts <- foldM add_feature fs [];
  plot_map_points pts.
End Plot.
Arguments trace P : clear implicits. Arguments figure P : clear implicits. Arguments feature_data P : clear implicits. Arguments map_feature P : clear implicits.
Arguments map_points P : clear implicits.
