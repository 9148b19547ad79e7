(** Drawings of scenarios: utils/sim_agents/visualizations.py. Numbers are reals. The axis of the plotting library is
    represented by the lines and the rectangles drawn on it. *)
From Coq Require Import Reals String List ZArith.
From Verif Require Import Base ResultLib PlotModel.
Import ListNotations.
Open Scope R_scope.

Definition pt := (R * R)%type.
(** 27-41. A color is red, green, blue. *)
Definition ROAD_EDGE_COLOR : string := "k--".
Definition ROAD_EDGE_ALPHA : R := 1.
Definition ROAD_LINE_COLOR : string := "k--".
Definition ROAD_LINE_ALPHA : R := 5 / 10.
Definition BBOX_ALPHA : R := 5 / 10.
Definition WAYMO_COLORS : list (R * R * R) :=
  map (fun c => let '(r, g, b) := c in (r / 255, g / 255, b / 255))
    [(0, 120, 255); (0, 232, 157); (255, 205, 85); (244, 175, 145); (145, 80, 200); (0, 51, 102)].

(** axis.plot. *)
Record plotted_line := { line_points : list pt; line_color : string; line_alpha : R }.
(** patches.Rectangle: a corner, the two sides, the angle in degrees by which it is turned around the corner, a color and its alpha. *)
Record rectangle := { corner : pt; side_x : R; side_y : R; angle : R; color : R * R * R; alpha : R }.
Record axis := { axis_lines : list plotted_line; patches : list rectangle }.

(** 61-64 and 67-70: x, y = zip( *points ) fails without points. *)
Definition add_polyline (a : axis) (ps : list pt) (c : string) (al : R) : result axis :=
  match ps with
  | [] => Err ValueError
  | _ => Ok {| axis_lines := axis_lines a ++ [ {| line_points := ps; line_color := c; line_alpha := al |} ]; patches := patches a |}
  end.
(** add_map (48-58); the features are those of PlotModel.v. *)
Definition add_map_feature (a : axis) (f : map_feature pt) : result axis :=
  match data f with
  | RoadEdge _ ps => add_polyline a ps ROAD_EDGE_COLOR ROAD_EDGE_ALPHA
  | RoadLine _ ps => add_polyline a ps ROAD_LINE_COLOR ROAD_LINE_ALPHA
  | _ => Ok a
  end.
Definition add_map (a : axis) (fs : list (map_feature pt)) : result axis := foldM add_map_feature fs a.

(** An index into an array: negative ones count from the end. *)
Definition item_at {A} (l : list A) (i : Z) : result A :=
  match nth_error l (Z.to_nat (if (i <? 0)%Z then i + Z.of_nat (List.length l) else i)%Z) with
  | Some x => if (i + Z.of_nat (List.length l) <? 0)%Z then Err IndexError else Ok x
  | None => Err IndexError
  end.

(** The state of an object: its place, yaw, length, width and color index. *)
Record object := { x : R; y : R; yaw : R; len : R; wid : R; color_idx : Z }.
(** np.rad2deg. *)
Definition rad2deg (a : R) : R := a * 180 / PI.
(** get_bbox_patch (73-104). *)
Definition get_bbox_patch (o : object) : result rectangle :=
  let left_rear_object := (- len o / 2, - wid o / 2) in
  let left_rear_rotated := (cos (yaw o) * fst left_rear_object + - sin (yaw o) * snd left_rear_object,
                            sin (yaw o) * fst left_rear_object + cos (yaw o) * snd left_rear_object) in
  let left_rear_global := (x o + fst left_rear_rotated, y o + snd left_rear_rotated) in
  do c <- item_at WAYMO_COLORS (color_idx o);
  Ok {| corner := left_rear_global; side_x := len o; side_y := wid o; angle := rad2deg (yaw o); color := c; alpha := BBOX_ALPHA |}.

(** add_all_current_objects (107-130): the axis afterwards, also after an error, and the rectangles. *)
Fixpoint add_all_current_objects (a : axis) (os : list object) : axis * result (list rectangle) :=
  match os with
  | [] => (a, Ok [])
  | o :: os' =>
      match get_bbox_patch o with
      | Err e => (a, Err e)
      | Ok r =>
          let '(a', rs) := add_all_current_objects {| axis_lines := axis_lines a; patches := patches a ++ [r] |} os' in
          (a', do rs <- rs; Ok (r :: rs))
      end
  end.

(** line.remove() of the rectangle at a position. *)
Fixpoint remove_at {A} (i : nat) (l : list A) : list A :=
  match l, i with
  | [], _ => []
  | _ :: l', O => l'
  | a :: l', S i' => a :: remove_at i' l'
  end.
(** 165-166: "for line in axis.patches: line.remove()" where the loop runs over the list that shrinks (plotting library
    before version 3.5): the loop looks at position i while it exists. The fuel is the length of the list. *)
Fixpoint shrinking_pass {A} (fuel i : nat) (l : list A) : list A :=
  match fuel with
  | O => l
  | S fuel' => if Nat.ltb i (List.length l) then shrinking_pass fuel' (S i) (remove_at i l) else l
  end.
(** The same where the loop runs over a copy (since version 3.5): everything is removed. *)
Definition copying_pass {A} (l : list A) : list A := fold_left (fun rest _ => remove_at 0 rest) l l.
(** 164: as many passes as there were rectangles. *)
Definition remove_patches {A} (copies : bool) (l : list A) : list A :=
  Nat.iter (List.length l) (fun l => if copies then copying_pass l else shrinking_pass (List.length l) 0 l) l.

(** x[:, t]. *)
Definition column {A} (rows : list (list A)) (t : nat) : result (list A) :=
  mapM (fun r => match nth_error r t with Some v => Ok v | None => Err IndexError end) rows.
(** animate (161-170). *)
Definition animate (copies : bool) (states : list (list object)) (a : axis) (t : nat) : axis * result (list rectangle) :=
  let a := {| axis_lines := axis_lines a; patches := remove_patches copies (patches a) |} in
  match column states t with
  | Ok os => add_all_current_objects a os
  | Err e => (a, Err e)
  end.
(** get_animated_states (133-174): the map is drawn once; the frames are then shown in any order the player asks for. *)
Fixpoint play (copies : bool) (states : list (list object)) (a : axis) (frames : list nat) : axis :=
  match frames with
  | [] => a
  | t :: frames' => play copies states (fst (animate copies states a t)) frames'
  end.
Definition get_animated_states (copies : bool) (fs : list (map_feature pt)) (states : list (list object)) (a : axis) (frames : list nat) : result axis :=
  do a <- add_map a fs;
  Ok (play copies states a frames).
