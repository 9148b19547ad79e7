(** What drawings of scenarios should show. Shared with the model: objects, features and the axis. *)
From Coq Require Import Reals String List ZArith.
From Verif Require Import Base PlotModel VizModel.
Import ListNotations.
Open Scope R_scope.

(** The points a rectangle of the plotting library covers: from its corner along its two turned sides. *)
Definition covered (r : rectangle) (q : pt) : Prop :=
  exists u v, 0 <= u <= side_x r /\ 0 <= v <= side_y r
    /\ fst q = fst (corner r) + u * cos (angle r * PI / 180) - v * sin (angle r * PI / 180)
    /\ snd q = snd (corner r) + u * sin (angle r * PI / 180) + v * cos (angle r * PI / 180).
(** The points of an object: at most half its length from its center along its heading, and half its width across. *)
Definition in_box (o : object) (q : pt) : Prop :=
  Rabs ((fst q - x o) * cos (yaw o) + (snd q - y o) * sin (yaw o)) <= len o / 2
  /\ Rabs (- (fst q - x o) * sin (yaw o) + (snd q - y o) * cos (yaw o)) <= wid o / 2.
(** The palette, in parts of 255, and which color an index stands for. *)
Definition palette : list (R * R * R) := [(0, 120, 255); (0, 232, 157); (255, 205, 85); (244, 175, 145); (145, 80, 200); (0, 51, 102)].
Definition picks (i : Z) (c : R * R * R) : Prop :=
  exists k r g b, nth_error palette k = Some (r, g, b) /\ (i = Z.of_nat k \/ i = Z.of_nat k - 6)%Z /\ c = (r / 255, g / 255, b / 255).
Definition valid_color (i : Z) : Prop := (-6 <= i <= 5)%Z.
(** The rectangle of an object. *)
Definition box_of (o : object) (r : rectangle) : Prop :=
  (forall q, covered r q <-> in_box o q) /\ picks (color_idx o) (color r) /\ alpha r = / 2 /\ side_x r = len o /\ side_y r = wid o.

(** The lines of a map. *)
Definition drawn_line (f : map_feature pt) : option (list pt * R) :=
  match data f with RoadEdge _ ps => Some (ps, 1) | RoadLine _ ps => Some (ps, / 2) | _ => None end.
Definition line_of (pa : list pt * R) (l : plotted_line) : Prop := line_points l = fst pa /\ line_alpha l = snd pa /\ line_color l = "k--"%string.
Definition map_lines (fs : list (map_feature pt)) : list (list pt * R) :=
  concat (map (fun f => match drawn_line f with Some pa => [pa] | None => [] end) fs).
(** The objects of a frame. *)
Definition frame (states : list (list object)) (t : nat) (os : list object) : Prop := Forall2 (fun row o => nth_error row t = Some o) states os.
