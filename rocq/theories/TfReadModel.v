(** Reading converted examples for the occupancy and flow task:
    src/waymo_open_dataset/utils/occupancy_flow_data.py parse_tf_example and add_sdc_fields.
    A serialized example is the log of ScenarioModel.v, read with [tensor]; serialization itself is not modelled. *)
From Coq Require Import String.
From Verif Require Import Base ResultLib ScenarioModel.
Open Scope list_scope.
Open Scope Z_scope.

Inductive dtype := TBytes | TFloat | TInt.

(** features_description (56-225): name, shape and type of every FixedLenFeature; no default value is given. *)
Definition features_description : list (string * list Z * dtype) :=
  [ ("scenario/id", [], TBytes); ("roadgraph_samples/dir", [20000; 3], TFloat); ("roadgraph_samples/id", [20000; 1], TInt);
    ("roadgraph_samples/type", [20000; 1], TInt); ("roadgraph_samples/valid", [20000; 1], TInt); ("roadgraph_samples/xyz", [20000; 3], TFloat);
    ("state/id", [128], TFloat); ("state/type", [128], TFloat); ("state/is_sdc", [128], TInt); ("state/tracks_to_predict", [128], TInt);
    ("state/current/bbox_yaw", [128; 1], TFloat); ("state/current/height", [128; 1], TFloat); ("state/current/length", [128; 1], TFloat);
    ("state/current/timestamp_micros", [128; 1], TInt); ("state/current/valid", [128; 1], TInt); ("state/current/vel_yaw", [128; 1], TFloat);
    ("state/current/velocity_x", [128; 1], TFloat); ("state/current/velocity_y", [128; 1], TFloat); ("state/current/width", [128; 1], TFloat);
    ("state/current/x", [128; 1], TFloat); ("state/current/y", [128; 1], TFloat); ("state/current/z", [128; 1], TFloat);
    ("state/future/bbox_yaw", [128; 80], TFloat); ("state/future/height", [128; 80], TFloat); ("state/future/length", [128; 80], TFloat);
    ("state/future/timestamp_micros", [128; 80], TInt); ("state/future/valid", [128; 80], TInt); ("state/future/vel_yaw", [128; 80], TFloat);
    ("state/future/velocity_x", [128; 80], TFloat); ("state/future/velocity_y", [128; 80], TFloat); ("state/future/width", [128; 80], TFloat);
    ("state/future/x", [128; 80], TFloat); ("state/future/y", [128; 80], TFloat); ("state/future/z", [128; 80], TFloat);
    ("state/past/bbox_yaw", [128; 10], TFloat); ("state/past/height", [128; 10], TFloat); ("state/past/length", [128; 10], TFloat);
    ("state/past/timestamp_micros", [128; 10], TInt); ("state/past/valid", [128; 10], TInt); ("state/past/vel_yaw", [128; 10], TFloat);
    ("state/past/velocity_x", [128; 10], TFloat); ("state/past/velocity_y", [128; 10], TFloat); ("state/past/width", [128; 10], TFloat);
    ("state/past/x", [128; 10], TFloat); ("state/past/y", [128; 10], TFloat); ("state/past/z", [128; 10], TFloat);
    ("traffic_light_state/current/state", [1; 16], TInt); ("traffic_light_state/current/valid", [1; 16], TInt);
    ("traffic_light_state/current/x", [1; 16], TFloat); ("traffic_light_state/current/y", [1; 16], TFloat);
    ("traffic_light_state/current/z", [1; 16], TFloat); ("traffic_light_state/past/state", [10; 16], TInt);
    ("traffic_light_state/past/valid", [10; 16], TInt); ("traffic_light_state/past/x", [10; 16], TFloat);
    ("traffic_light_state/past/y", [10; 16], TFloat); ("traffic_light_state/past/z", [10; 16], TFloat) ]%string.

(** The elements of a shape. *)
Definition elements (shape : list Z) : Z := fold_left Z.mul shape 1.
Definition has_dtype (d : dtype) (v : value) : bool :=
  match d, v with TBytes, VBytes _ => true | TFloat, VFloat _ => true | TInt, VInt _ => true | _, _ => false end.

(** tf.io.parse_single_example (227) for one FixedLenFeature without default: the feature must be there, be of the given
    type and have as many values as the shape has elements; otherwise an InvalidArgumentError, here ValueError. The tensor
    is given by its elements, row by row. *)
Definition fixed_len_feature (ex : log) (d : string * list Z * dtype) : result (string * list value) :=
  let '(name, shape, kind) := d in
  match tensor name ex with
  | [] => Err ValueError
  | vs => if forallb (has_dtype kind) vs && (size vs =? elements shape) then Ok (name, vs) else Err ValueError
  end.
(** parse_tf_example (54-227): the dictionary as a list of entries. *)
Definition parsed := list (string * list value).
Definition parse_tf_example (ex : log) : result parsed := mapM (fixed_len_feature ex) features_description.

(** inputs[name] for one example of the batch. *)
Definition input (name : string) (p : parsed) : result (list value) :=
  match find (fun e => String.eqb (fst e) name) p with Some e => Ok (snd e) | None => Err KeyError end.

(** tf.where(tf.equal(inputs['state/is_sdc'], 1)) (233): the positions in a batch, row by row. *)
Definition is_one (v : value) : bool := match v with VInt 1 => true | _ => false end.
Definition ones (vs : list value) : list nat :=
  map fst (filter (fun iv => is_one (snd iv)) (combine (seq 0 (List.length vs)) vs)).
Definition sdc_indices (batch : list parsed) : result (list (nat * nat)) :=
  do rows <- mapM (input "state/is_sdc") batch;
  Ok (flat_map (fun bv => map (fun i => (fst bv, i)) (ones (snd bv))) (combine (seq 0 (List.length rows)) rows)).
(** tf.gather_nd (235-240) of a tensor of shape [batch, 128, 1] at pairs; an index outside is an error. *)
Definition gather (name : string) (batch : list parsed) (indices : list (nat * nat)) : result (list value) :=
  do rows <- mapM (input name) batch;
  mapM (fun bi => match nth_error rows (fst bi) with
                  | Some r => match nth_error r (snd bi) with Some v => Ok v | None => Err IndexError end
                  | None => Err IndexError
                  end) indices.
(** add_sdc_fields (230-241): the four fields it adds. *)
Record sdc_fields := { sdc_x : list value; sdc_y : list value; sdc_z : list value; sdc_yaw : list value }.
Definition add_sdc_fields (batch : list parsed) : result sdc_fields :=
  do indices <- sdc_indices batch;
  do x <- gather "state/current/x" batch indices;
  do y <- gather "state/current/y" batch indices;
  do z <- gather "state/current/z" batch indices;
  do yaw <- gather "state/current/bbox_yaw" batch indices;
  Ok {| sdc_x := x; sdc_y := y; sdc_z := z; sdc_yaw := yaw |}.

(** protos/conversion_config.proto 24-76: the defaults of the conversion. *)
Definition default_config : config :=
  {| max_num_agents := 128; max_num_modeled_agents := 8; num_past_steps := 11; num_future_steps := 80; max_roadgraph_samples := 30000;
     source_polyline_spacing := 1 # 2; polyline_sample_spacing := 1; polygon_sample_spacing := 1;
     max_traffic_light_control_points_per_step := 16 |}.
