(** C127: drawings and animations of scenarios. *)
From Coq Require Import Reals String List ZArith Lra Lia.
From Verif Require Import Base ResultLib PlotModel VizModel VizSpec VizProofs.
Import ListNotations.
Open Scope R_scope.
(** An index stands for one color. *)
Theorem C127_color : forall i c c', picks i c -> picks i c' -> c = c'.
Proof. exact (color_once ). Qed.
Print Assumptions C127_color.
(** An object is drawn as its box, in the color of its index. *)
Theorem C127_box : forall o, valid_color (color_idx o) -> exists r, get_bbox_patch o = Ok r /\ box_of o r.
Proof. exact (patch_of ). Qed.
Print Assumptions C127_box.
(** An index outside the palette is an IndexError. *)
Theorem C127_bad_color : forall o, ~ valid_color (color_idx o) -> get_bbox_patch o = Err IndexError.
Proof. exact (patch_fails ). Qed.
Print Assumptions C127_bad_color.
(** The center of an object is covered. *)
Theorem C127_center : forall o r, get_bbox_patch o = Ok r -> 0 <= len o -> 0 <= wid o -> covered r (x o, y o).
Proof. exact (center_covered ). Qed.
Print Assumptions C127_center.
(** All objects are drawn, in order, on top of what was there. *)
Theorem C127_objects : forall a os, Forall (fun o => valid_color (color_idx o)) os ->
  exists rs, add_all_current_objects a os = ({| axis_lines := axis_lines a; patches := patches a ++ rs |}, Ok rs) /\ Forall2 box_of os rs.
Proof. exact (objects_added ). Qed.
Print Assumptions C127_objects.
(** A bad color stops the drawing at that object. *)
Theorem C127_objects_fail : forall a good bad rest, Forall (fun o => valid_color (color_idx o)) good -> ~ valid_color (color_idx bad) ->
  exists rs, add_all_current_objects a (good ++ bad :: rest) = ({| axis_lines := axis_lines a; patches := patches a ++ rs |}, Err IndexError) /\ Forall2 box_of good rs.
Proof. exact (objects_fail ). Qed.
Print Assumptions C127_objects_fail.
(** The nested loops remove all rectangles, whether or not the loop runs over a copy. *)
Theorem C127_removed : forall (A : Type) copies (l : list A), remove_patches copies l = [].
Proof. exact (all_removed ). Qed.
Print Assumptions C127_removed.
(** A single pass over the shrinking list would not. *)
Theorem C127_one_pass_refuted : exists l : list nat, shrinking_pass (List.length l) 0 l = [2; 4]%nat /\ l = [1; 2; 3; 4]%nat.
Proof. exact (one_pass_refuted ). Qed.
Print Assumptions C127_one_pass_refuted.
(** A frame shows exactly its objects. *)
Theorem C127_frame : forall copies states a t os, frame states t os -> Forall (fun o => valid_color (color_idx o)) os ->
  exists rs, animate copies states a t = ({| axis_lines := axis_lines a; patches := rs |}, Ok rs) /\ Forall2 box_of os rs.
Proof. exact (frame_shown ). Qed.
Print Assumptions C127_frame.
(** The map shows each road edge and road line, in order. *)
Theorem C127_map : forall a fs, (forall f al, In f fs -> drawn_line f <> Some ([], al)) ->
  exists ls, add_map a fs = Ok {| axis_lines := axis_lines a ++ ls; patches := patches a |} /\ Forall2 line_of (map_lines fs) ls.
Proof. exact (map_drawn ). Qed.
Print Assumptions C127_map.
(** A road edge or road line without points is a ValueError. *)
Theorem C127_map_fails : forall a fs f al, In f fs -> drawn_line f = Some ([], al) -> add_map a fs = Err ValueError.
Proof. exact (map_fails ). Qed.
Print Assumptions C127_map_fails.
(** So one empty road line stops a map with other features. *)
Theorem C127_empty_line_refuted : exists fs, (exists f ps, In f fs /\ drawn_line f = Some (ps, 1) /\ ps <> []) /\ forall a, add_map a fs = Err ValueError.
Proof. exact (empty_line_refuted ). Qed.
Print Assumptions C127_empty_line_refuted.
(** After any frames, the animation shows the map and the objects of the last frame. *)
Theorem C127_animation : forall copies fs states a frames t os,
  (forall f al, In f fs -> drawn_line f <> Some ([], al)) -> frame states t os -> Forall (fun o => valid_color (color_idx o)) os ->
  exists ls rs, get_animated_states copies fs states a (frames ++ [t]) = Ok {| axis_lines := axis_lines a ++ ls; patches := rs |}
    /\ Forall2 line_of (map_lines fs) ls /\ Forall2 box_of os rs.
Proof. exact (animation_shows ). Qed.
Print Assumptions C127_animation.

(** Two objects over two steps, a map of one edge, and frames shown out of order. *)
Example C127_nonvacuous :
  let o p c := {| x := p; y := 2; yaw := PI / 2; len := 4; wid := 2; color_idx := c |} in
  let states := [ [o 0 0%Z; o 1 0%Z]; [o 5 (-1)%Z; o 6 5%Z] ] in
  let fs := [ {| feature_id := 1%Z; data := RoadEdge 1%Z [(0, 0); (1, 1)] |}; {| feature_id := 2%Z; data := @StopSign pt (3, 3) |} ] in
  (forall f al, In f fs -> drawn_line f <> Some ([], al)) /\ frame states 1 [o 1 0%Z; o 6 5%Z]
  /\ Forall (fun o => valid_color (color_idx o)) [o 1 0%Z; o 6 5%Z] /\ map_lines fs = [([(0, 0); (1, 1)], 1)].
Proof.
  cbv zeta. split; [intros f al [<-|[<-|[]]]; discriminate|]. split; [repeat constructor|]. split; [|reflexivity].
  constructor; [unfold valid_color; cbn [color_idx]; lia|]. constructor; [unfold valid_color; cbn [color_idx]; lia|constructor].
Qed.
