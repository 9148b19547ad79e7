(** Rendering of occupancy and flow grids, /repo/src/waymo_open_dataset/utils/occupancy_flow_renderer.py.

    Conventions.
    - Numbers are real numbers; rounding of intermediate results is not modelled.  The rounding of the code to
      pixels is, so coordinates of pixels are integers.
    - One example of the batch; the height of boxes, only carried along by the code, is left out.
    - A grid is a function of the row, the column and the step, meaningful inside its shape. *)
From Coq Require Import Reals.
From Verif Require Import Base ResultLib WayModel GeomModel.
Open Scope list_scope.
Open Scope R_scope.

(** protos/occupancy_flow_metrics.proto:25-85. *)
Record render_config := {
  task : config; normalize_sdc_yaw : bool; grid_height_cells : Z; grid_width_cells : Z; sdc_y_in_grid : Z; sdc_x_in_grid : Z;
  pixels_per_meter : R; points_per_side_length : nat; points_per_side_width : nat }.
(** The inputs: the states of an agent, an agent, and a scene with the pose of the autonomous vehicle, as
    set by occupancy_flow_data.py:add_sdc_fields. *)
Record state := { pos_x : R; pos_y : R; bbox_yaw : R; box_length : R; box_width : R; valid : bool }.
Record agent := { agent_type : Z; past : list state; current : list state; future : list state }.
Record scene := { sdc_x : R; sdc_y : R; sdc_yaw : R; agents : list agent }.
Inductive times := Past | Current | Future.
Definition is_time (a b : times) : bool :=
  match a, b with Past, Past | Current, Current | Future, Future => true | _, _ => false end.

(** 811-842: _stack_field, all fields at once. *)
Definition stack (ts : list times) (a : agent) : list state :=
  flat_map (fun t => match t with Past => past a | Current => current a | Future => future a end) ts.
(** 845-857: _get_num_steps_from_times. *)
Definition num_steps (c : render_config) (ts : list times) : nat :=
  ((if existsb (is_time Past) ts then num_past_steps (task c) else 0) + (if existsb (is_time Current) ts then 1 else 0) +
   (if existsb (is_time Future) ts then num_future_steps (task c) else 0))%nat.

(** 739-774: the sample points of the unit square. *)
Definition unit_step (n : nat) : R := if Nat.eqb n 1 then 0 else 1 / (INR n - 1).
Definition unit_coordinate (n i : nat) : R := INR i * unit_step n - 1 / 2 + (if Nat.eqb n 1 then 1 / 2 else 0).
Definition unit_points (n_length n_width : nat) : list (R * R) :=
  flat_map (fun xi => map (fun yi => (unit_coordinate n_length xi, unit_coordinate n_width yi)) (seq 0 n_width)) (seq 0 n_length).
(** 791-808: rotate_points_around_origin. *)
Definition rotate (angle : R) (p : R * R) : R * R :=
  (cos angle * fst p - sin angle * snd p, sin angle * fst p + cos angle * snd p).
(** 647-695 and 775-788: the sample points of a state, with the vehicle at the origin. *)
Definition sample_points (c : render_config) (sc : scene) (s : state) : list (R * R) :=
  let x := pos_x s - sdc_x sc in
  let y := pos_y s - sdc_y sc in
  let angle := PI / 2 - sdc_yaw sc in
  let center := if normalize_sdc_yaw c then rotate angle (x, y) else (x, y) in
  let yaw := if normalize_sdc_yaw c then bbox_yaw s + angle else bbox_yaw s in
  map (fun u =>
    (cos yaw * box_length s * fst u - sin yaw * box_width s * snd u + fst center,
     sin yaw * box_length s * fst u + cos yaw * box_width s * snd u + snd center))
    (unit_points (points_per_side_length c) (points_per_side_width c)).

(** tf.round: halves go to the even integer. *)
Definition tf_round (x : R) : Z :=
  let f := Int_part x in
  let d := x - IZR f in
  if rltb d (1 / 2) then f else if rltb (1 / 2) d then (f + 1)%Z else if Z.even f then f else (f + 1)%Z.
(** 497-533: _transform_to_image_coordinates. *)
Definition pixel := (Z * Z)%type.
Definition to_image (c : render_config) (p : R * R) : pixel :=
  ((tf_round (fst p * pixels_per_meter c) + sdc_x_in_grid c)%Z, (tf_round (- snd p * pixels_per_meter c) + sdc_y_in_grid c)%Z).
Definition point_is_in_fov (c : render_config) (p : pixel) : bool :=
  (Z.leb 0 (fst p) && Z.leb 0 (snd p)) && (Z.ltb (fst p) (grid_width_cells c) && Z.ltb (snd p) (grid_height_cells c)).

(** An agent's row of the sampled tensors: its type and, for each step, the flag and the points as pixels. *)
Record row := { row_type : Z; row_steps : list (bool * list pixel) }.
(** 536-614: _sample_and_filter_agent_points, with the transform to pixels that follows in both callers; the
    shapes are checked by assert_shapes. *)
Definition sample_and_filter (c : render_config) (sc : scene) (ts : list times) (include_observed include_occluded : bool)
  : result (list row) :=
  if Nat.ltb (points_per_side_length c) 1 then Err ValueError else
  if Nat.ltb (points_per_side_width c) 1 then Err ValueError else
  if negb (forallb (fun a => Nat.eqb (length (stack ts a)) (num_steps c ts)) (agents sc)) then Err ValueError else
  let include_all := include_observed && include_occluded in
  let rows (agent_filter : agent -> bool) :=
    map (fun a =>
      {| row_type := agent_type a;
         row_steps := map (fun s => (valid s && agent_filter a, map (to_image c) (sample_points c sc s))) (stack ts a) |})
      (agents sc) in
  if negb include_all && existsb (is_time Future) ts then
    let agent_is_observed := fun a => existsb valid (stack [Past; Current] a) in
    if include_observed then Ok (rows agent_is_observed)
    else if include_occluded then Ok (rows (fun a => negb (agent_is_observed a)))
    else Err ValueError
  else Ok (rows (fun _ => true)).

(** tf.scatter_nd into a grid of zeros: values at the same index add up; an index out of bounds is refused. *)
Definition place3 := (Z * Z * nat)%type.
Definition grid := Z -> Z -> nat -> R.
Definition in_bounds (h w : Z) (steps : nat) (i : place3) : bool :=
  Z.leb 0 (fst (fst i)) && Z.ltb (fst (fst i)) h && Z.leb 0 (snd (fst i)) && Z.ltb (snd (fst i)) w && Nat.ltb (snd i) steps.
Definition same_place (i j : place3) : bool :=
  Z.eqb (fst (fst i)) (fst (fst j)) && Z.eqb (snd (fst i)) (snd (fst j)) && Nat.eqb (snd i) (snd j).
Definition scatter (h w : Z) (steps : nat) (updates : list (place3 * R)) : result grid :=
  if forallb (fun u => in_bounds h w steps (fst u)) updates then
    Ok (fun r q t => reduce_sum (map snd (filter (fun u => same_place (fst u) (r, q, t)) updates)))
  else Err RuntimeError.

(** 111-168: the points to render of a class, with their indices, and the grid of a class. *)
Definition numbered {A} (l : list A) : list (nat * A) := combine (seq 0 (length l)) l.
Definition rendered_points (c : render_config) (object_type : Z) (rows : list row) : list place3 :=
  flat_map (fun a =>
    flat_map (fun st =>
      map (fun p => (snd p, fst p, fst st))
        (filter (fun p => (point_is_in_fov c p && fst (snd st)) && Z.eqb (row_type a) object_type) (snd (snd st))))
      (numbered (row_steps a))) rows.
Definition render_class (c : render_config) (steps : nat) (rows : list row) (object_type : Z) : result grid :=
  do topdown <- scatter (grid_height_cells c) (grid_width_cells c) steps
    (map (fun i => (i, 1)) (rendered_points c object_type rows));
  Ok (fun r q t => clip01 (topdown r q t)).
(** 52-174: render_occupancy_from_inputs. *)
Definition render_occupancy_from_inputs (c : render_config) (sc : scene) (ts : list times)
  (include_observed include_occluded : bool) : result (classes grid) :=
  do rows <- sample_and_filter c sc ts include_observed include_occluded;
  let steps := num_steps c ts in
  do v <- render_class c steps rows 1;
  do p <- render_class c steps rows 2;
  do y <- render_class c steps rows 3;
  Ok {| vehicles := v; pedestrians := p; cyclists := y |}.

(** 240-271: pairs of steps, each with the one [waypoint_size] earlier: the flag and, for each point, where it was
    and where it is.  The tensors subtracted must agree in length (a single step is not broadcast here). *)
Record flow_row := { flow_type : Z; flow_steps : list (bool * list (pixel * pixel)) }.
Definition flow_rows (waypoint_size : nat) (rows : list row) : result (list flow_row) :=
  mapM (fun a =>
    let before := slice_to (row_steps a) (- Z.of_nat waypoint_size) in
    let after := slice_from (row_steps a) (Z.of_nat waypoint_size) in
    if Nat.eqb (length before) (length after) then
      Ok {| flow_type := row_type a;
            flow_steps := map (fun ba => (fst (snd ba) && fst (fst ba), combine (snd (fst ba)) (snd (snd ba)))) (combine before after) |}
    else Err RuntimeError) rows.
(** 273-296 and 305-384: the points to render of a class, with their displacements, and the flow of a class. *)
Definition flow_points (c : render_config) (object_type : Z) (rows : list flow_row) : list (place3 * (R * R)) :=
  flat_map (fun a =>
    flat_map (fun st =>
      map (fun m =>
        ((snd (snd m), fst (snd m), fst st), (IZR (fst (fst m) - fst (snd m)), IZR (snd (fst m) - snd (snd m)))))
        (filter (fun m => (point_is_in_fov c (snd m) && fst (snd st)) && Z.eqb (flow_type a) object_type) (snd (snd st))))
      (numbered (flow_steps a))) rows.
Definition flow_grid := Z -> Z -> nat -> R * R.
Definition render_flow_class (c : render_config) (steps : nat) (rows : list flow_row) (object_type : Z) : result flow_grid :=
  let points := flow_points c object_type rows in
  let put f := scatter (grid_height_cells c) (grid_width_cells c) steps (map f points) in
  do flow_x <- put (fun p => (fst p, fst (snd p)));
  do flow_y <- put (fun p => (fst p, snd (snd p)));
  do num_values_per_pixel <- put (fun p => (fst p, 1));
  Ok (fun r q t => (divide_no_nan (flow_x r q t) (num_values_per_pixel r q t),
                    divide_no_nan (flow_y r q t) (num_values_per_pixel r q t))).
(** 177-302: render_flow_from_inputs.  A division by zero raises ZeroDivisionError, written RuntimeError. *)
Definition render_flow_from_inputs (c : render_config) (sc : scene) (ts : list times)
  (include_observed include_occluded : bool) : result (classes flow_grid) :=
  do rows <- sample_and_filter c sc ts include_observed include_occluded;
  if Nat.eqb (num_waypoints (task c)) 0 then Err RuntimeError else
  let waypoint_size := Nat.div (num_future_steps (task c)) (num_waypoints (task c)) in
  do moves <- flow_rows waypoint_size rows;
  if Nat.ltb (num_steps c ts) waypoint_size then Err ValueError else
  let num_flow_steps := (num_steps c ts - waypoint_size)%nat in
  do v <- render_flow_class c num_flow_steps moves 1;
  do p <- render_flow_class c num_flow_steps moves 2;
  do y <- render_flow_class c num_flow_steps moves 3;
  Ok {| vehicles := v; pedestrians := p; cyclists := y |}.

(** 387-494: render_roadgraph_from_inputs, on the points of the road graph and their flags. *)
Definition render_roadgraph_from_inputs (c : render_config) (sc : scene) (points : list (R * R * bool)) : result (Z -> Z -> R) :=
  let angle := PI / 2 - sdc_yaw sc in
  let placed := map (fun p =>
    let q := (fst (fst p) - sdc_x sc, snd (fst p) - sdc_y sc) in
    (to_image c (if normalize_sdc_yaw c then rotate angle q else q), snd p)) points in
  let shown := filter (fun p => point_is_in_fov c (fst p) && snd p) placed in
  do viz <- scatter (grid_height_cells c) (grid_width_cells c) 1 (map (fun p => ((snd (fst p), fst (fst p), 0%nat), 1)) shown);
  Ok (fun r q => clip01 (viz r q 0%nat)).
