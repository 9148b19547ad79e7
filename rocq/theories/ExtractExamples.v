(** Concrete labels, and the claims that the extraction of box labels does not meet. *)
From Coq Require Import String Ascii.
From Verif Require Import Base ResultLib ExtractModel ExtractSpec ExtractProofs.
Open Scope list_scope.
Open Scope Z_scope.

Definition a_box3 : box1 :=
  {| center_x := Some 1; center_y := Some 2; center_z := Some 3; length_ := Some 4; width := Some 5; height := Some 6; heading := Some 7 |}.
Definition a_box2 : box1 :=
  {| center_x := Some 10; center_y := Some 20; center_z := None; length_ := Some 30; width := Some 40; height := None; heading := None |}.
Definition object_22 : text := codes "0123456789abcdefghijkl".
Definition lidar_label (m : option metadata1) : label1 :=
  {| l_box := Some a_box3; l_metadata := m; l_type := Some 1; l_id := Some object_22; l_detection := None; l_tracking := Some 2;
     l_points := Some 50; l_top_points := Some 40; l_association := None; l_camera := Some (codes "SIDE_LEFT"); l_synced := Some a_box3 |}.
Definition speed_only : metadata1 :=
  {| speed_x := Some 3; speed_y := Some 4; speed_z := None; accel_x := None; accel_y := None; accel_z := None |}.
Definition motion (z : option Z) : metadata1 :=
  {| speed_x := Some 3; speed_y := Some 4; speed_z := z; accel_x := Some 1; accel_y := Some 1; accel_z := None |}.
Definition image_label (id : text) (a : option (option text)) : label1 :=
  {| l_box := Some a_box2; l_metadata := None; l_type := Some 2; l_id := Some id; l_detection := Some 1; l_tracking := None;
     l_points := None; l_top_points := None; l_association := a; l_camera := None; l_synced := None |}.
Definition no_box (l : label1) : label1 :=
  {| l_box := None; l_metadata := l_metadata l; l_type := l_type l; l_id := l_id l; l_detection := l_detection l; l_tracking := l_tracking l;
     l_points := l_points l; l_top_points := l_top_points l; l_association := l_association l; l_camera := l_camera l; l_synced := l_synced l |}.
Definition with_camera (n : text) (l : label1) : label1 :=
  {| l_box := l_box l; l_metadata := l_metadata l; l_type := l_type l; l_id := l_id l; l_detection := l_detection l; l_tracking := l_tracking l;
     l_points := l_points l; l_top_points := l_top_points l; l_association := l_association l; l_camera := Some n; l_synced := l_synced l |}.
Definition frame_of (lasers : list label1) (projected cameras : list camera_labels1) : frame1 :=
  {| f_context := Some (codes "segment"); f_timestamp := Some 1000; f_laser_labels := lasers; f_projected := projected; f_camera_labels := cameras |}.
Definition group (n : Z) (ls : list label1) : camera_labels1 := {| cl_name := Some n; cl_labels := ls |}.
Definition documented (name : string) : text := object_22 ++ codes "_" ++ codes name.

(** The documented error for missing fields is never raised: a label with a speed and without acceleration fails an assertion, and
    the labels beside it are lost as well. *)
Theorem missing_refuted :
  exists f l l', f_laser_labels f = [l; l'] /\ (exists c, is_lidar_box f l c) /\ has_box l' = true /\
    (exists m, l_metadata l' = Some m /\ speed_x m <> None /\ speed_y m <> None) /\
    all_lidar_boxes f = Err AssertionError.
Proof.
  exists (frame_of [lidar_label None; lidar_label (Some speed_only)] [] []), (lidar_label None), (lidar_label (Some speed_only)).
  split; [reflexivity|]. split; [|split; [reflexivity|split; [|vm_compute; reflexivity]]].
  - apply lidar_box_exists. split; [|discriminate]. exists a_box3. cbn. repeat split; discriminate.
  - exists speed_only. cbn. repeat split; discriminate.
Qed.

(** A missing number is the same as a zero. *)
Theorem zero_refuted :
  exists f l l' c, l <> l' /\ extract_lidar_box f l = Ok [c] /\ extract_lidar_box f l' = Ok [c].
Proof.
  exists (frame_of [] [] []), (lidar_label (Some (motion None))), (lidar_label (Some (motion (Some 0)))).
  eexists. split; [discriminate|]. split; vm_compute; reflexivity.
Qed.

(** The separator is not checked: two labels with different ids have the same key, which the version 2 tables take to be unique. *)
Theorem separator_refuted :
  exists f r, all_projected_boxes f = Ok r /\
    NoDup (map id_of (filter has_box (map snd (labels_of (f_projected f))))) /\ ~ NoDup (map pb_key r).
Proof.
  exists (frame_of [] [group 1 [image_label (documented "FRONT") None; image_label (object_22 ++ codes "-FRONT") None]] []).
  eexists. split; [vm_compute; reflexivity|]. split.
  - repeat constructor; cbn; intros []; [discriminate|assumption].
  - intros N. inversion N as [|? ? X _]; subst. apply X. left. reflexivity.
Qed.

(** The camera of a projected box is that of the id, even when its label belongs to another camera. *)
Theorem camera_refuted :
  exists f c l p, In c (f_projected f) /\ In l (cl_labels c) /\ extract_projected_box f c l = Ok [p] /\
    Some (pk_camera (pb_key p)) <> cl_name c.
Proof.
  pose (l := image_label (documented "SIDE_RIGHT") None).
  exists (frame_of [] [group 1 [l]] []), (group 1 [l]), l. eexists.
  split; [now left|]. split; [now left|]. split; [vm_compute; reflexivity|]. discriminate.
Qed.

(** The ids of laser objects that do not have 22 characters are refused, with all the projected boxes of the frame. *)
Theorem long_id_refuted :
  exists f l a v, In l (map snd (labels_of (f_projected f))) /\ documented_id (id_of l) a v /\ all_projected_boxes f = Err KeyError.
Proof.
  pose (l := image_label (codes "x" ++ documented "FRONT") None).
  exists (frame_of [] [group 1 [l]] []), l, (codes "x" ++ object_22), 1.
  split; [now left|]. split; [|vm_compute; reflexivity]. exists (codes "FRONT"). split; [reflexivity|constructor].
Qed.

(** The rear cameras of version 1 (dataset.proto CameraName) have no number in version 2. *)
Theorem rear_refuted :
  exists f l, f_laser_labels f = [l] /\ l_camera l = Some (codes "REAR") /\ l_synced l = Some a_box3 /\
    all_synced_boxes f = Err KeyError.
Proof.
  exists (frame_of [with_camera (codes "REAR") (lidar_label None)] [] []), (with_camera (codes "REAR") (lidar_label None)).
  repeat split; vm_compute; reflexivity.
Qed.

(** A label without box gives an association that no camera box has. *)
Theorem dangling_refuted :
  exists f boxes keys k, all_camera_boxes f = Ok boxes /\ all_associations f = Ok keys /\ In k keys /\
    forall c, In c boxes -> cb_key c <> {| ck_segment := ak_segment k; ck_time := ak_time k; ck_camera := ak_camera k; ck_object := ak_object k |}.
Proof.
  exists (frame_of [] [] [group 1 [no_box (image_label (codes "cam") (Some (Some object_22)))]]). do 3 eexists.
  split; [vm_compute; reflexivity|]. split; [vm_compute; reflexivity|]. split; [now left|]. intros c [].
Qed.
