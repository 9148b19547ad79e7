(** C119: the box labels of version 1 as components of version 2. *)
From Coq Require Import String Ascii.
From Verif Require Import Base ResultLib ExtractModel ExtractSpec ExtractProofs ExtractExamples.
Open Scope list_scope.
Open Scope Z_scope.
(** The laser boxes of a frame are the labels with a box, in order, with all their numbers. *)
Theorem C119_lidar_box f r : all_lidar_boxes f = Ok r <-> Forall2 (is_lidar_box f) (filter has_box (f_laser_labels f)) r.
Proof. exact (lidar_boxes f r). Qed.
Print Assumptions C119_lidar_box.
(** A label has a component exactly when the seven numbers of its box are set and its metadata, if any, has a speed and an acceleration. *)
Theorem C119_lidar_box_exists f l : (exists c, is_lidar_box f l c) <->
  (exists b, l_box l = Some b /\ center_x b <> None /\ center_y b <> None /\ center_z b <> None /\ length_ b <> None /\
     width b <> None /\ height b <> None /\ heading b <> None) /\
  (forall m, l_metadata l = Some m -> speed_x m <> None /\ speed_y m <> None /\ accel_x m <> None /\ accel_y m <> None).
Proof. exact (lidar_box_exists f l). Qed.
Print Assumptions C119_lidar_box_exists.
(** A single label gives nothing without a box, and otherwise its one component. *)
Theorem C119_lidar_box_one f l r : extract_lidar_box f l = Ok r <-> (has_box l = false /\ r = []) \/ (exists c, r = [c] /\ is_lidar_box f l c).
Proof. exact (lidar_box_ok f l r). Qed.
Print Assumptions C119_lidar_box_one.
(** Otherwise an assertion fails. *)
Theorem C119_lidar_box_error f l e : extract_lidar_box f l = Err e <-> e = AssertionError /\ has_box l = true /\ (forall c, ~ is_lidar_box f l c).
Proof. exact (lidar_box_err f l e). Qed.
Print Assumptions C119_lidar_box_error.
(** One such label is enough for the extraction of all to fail. *)
Theorem C119_lidar_box_stops f : all_lidar_boxes f = Err AssertionError <->
  exists l, In l (f_laser_labels f) /\ has_box l = true /\ forall c, ~ is_lidar_box f l c.
Proof. exact (lidar_boxes_fail f). Qed.
Print Assumptions C119_lidar_box_stops.
(** The boxes moved to the time of a camera. *)
Theorem C119_synced_box f r : all_synced_boxes f = Ok r <-> Forall2 (is_synced_box f) (filter has_synced_box (f_laser_labels f)) r.
Proof. exact (synced_boxes f r). Qed.
Print Assumptions C119_synced_box.
(** They fail for an unknown camera name or an incomplete box. *)
Theorem C119_synced_box_error f l e : extract_synced_box f l = Err e <->
  exists name b, l_camera l = Some name /\ name <> [] /\ l_synced l = Some b /\
    ((e = KeyError /\ forall v, ~ camera name v) \/
     (e = AssertionError /\ (exists v, camera name v) /\ forall r, ~ same_box3 b r)).
Proof. exact (synced_box_err f l e). Qed.
Print Assumptions C119_synced_box_error.
(** The boxes on the images. *)
Theorem C119_camera_box f r : all_camera_boxes f = Ok r <-> Forall2 (is_camera_box f) (filter (fun s => has_box (snd s)) (labels_of (f_camera_labels f))) r.
Proof. exact (camera_boxes f r). Qed.
Print Assumptions C119_camera_box.
(** They fail for an incomplete box or one with a third dimension. *)
Theorem C119_camera_box_error f c l e : extract_camera_box f c l = Err e <-> e = AssertionError /\ exists b, l_box l = Some b /\ forall r, ~ same_box2 b r.
Proof. exact (camera_box_err f c l e). Qed.
Print Assumptions C119_camera_box_error.
(** The projected boxes. *)
Theorem C119_projected_box f r : all_projected_boxes f = Ok r <-> Forall2 (is_projected_box f) (filter has_box (map snd (labels_of (f_projected f)))) r.
Proof. exact (projected_boxes f r). Qed.
Print Assumptions C119_projected_box.
(** They fail for an id of another form or for another kind of box. *)
Theorem C119_projected_box_error f c l e : extract_projected_box f c l = Err e <->
  exists b, l_box l = Some b /\
    ((e = KeyError /\ forall a v, ~ projected_id (id_of l) a v) \/
     (e = AssertionError /\ (exists a v, projected_id (id_of l) a v) /\ forall r, ~ same_box2 b r)).
Proof. exact (projected_box_err f c l e). Qed.
Print Assumptions C119_projected_box_error.
(** The documented form of an id is read exactly when the laser object has 22 characters. *)
Theorem C119_projected_id a name v : camera name v ->
  parse_lidar_object_id (a ++ underscore :: name) = (if (List.length a =? 22)%nat then Ok (a, v) else Err KeyError).
Proof. exact (parse_documented a name v). Qed.
Print Assumptions C119_projected_id.
(** With such ids the keys give back the ids, so that they are distinct exactly when the ids are. *)
Theorem C119_projected_keys f r : (forall l, In l (map snd (labels_of (f_projected f))) -> has_box l = true ->
     exists a v, documented_id (id_of l) a v /\ List.length a = 22%nat) ->
  all_projected_boxes f = Ok r ->
  Forall2 (fun l c => documented_id (id_of l) (pk_object (pb_key c)) (pk_camera (pb_key c)))
    (filter has_box (map snd (labels_of (f_projected f)))) r /\
  (NoDup (map pb_key r) <-> NoDup (map id_of (filter has_box (map snd (labels_of (f_projected f)))))).
Proof. exact (projected_keys f r). Qed.
Print Assumptions C119_projected_keys.
(** The associations are those of the labels that have one. *)
Theorem C119_association f r : all_associations f = Ok r <-> Forall2 (is_association f) (filter (fun s => has_association (snd s)) (labels_of (f_camera_labels f))) r.
Proof. exact (associations f r). Qed.
Print Assumptions C119_association.
(** They can always be extracted. *)
Theorem C119_association_total f : exists r, all_associations f = Ok r.
Proof. exact (associations_total f). Qed.
Print Assumptions C119_association_total.
(** An association can be joined with a camera box exactly when a label of that camera and id has a box. *)
Theorem C119_association_joins f boxes keys k : all_camera_boxes f = Ok boxes -> all_associations f = Ok keys -> In k keys ->
  ((exists c, In c boxes /\ cb_key c = {| ck_segment := ak_segment k; ck_time := ak_time k; ck_camera := ak_camera k; ck_object := ak_object k |}) <->
   exists s, In s (labels_of (f_camera_labels f)) /\ has_box (snd s) = true /\ or_default 0 (fst s) = ak_camera k /\ id_of (snd s) = ak_object k).
Proof. exact (association_joins f boxes keys k). Qed.
Print Assumptions C119_association_joins.
(** The keys of laser boxes are distinct exactly when the ids of the labels are. *)
Theorem C119_lidar_keys f r : all_lidar_boxes f = Ok r -> (NoDup (map lb_key r) <-> NoDup (map id_of (filter has_box (f_laser_labels f)))).
Proof. exact (lidar_keys_distinct f r). Qed.
Print Assumptions C119_lidar_keys.
(** The keys of camera boxes are distinct exactly when no two labels of a camera number have one id. *)
Theorem C119_camera_keys f r : all_camera_boxes f = Ok r ->
  (NoDup (map cb_key r) <->
   NoDup (map (fun s => (or_default 0 (fst s), id_of (snd s))) (filter (fun s => has_box (snd s)) (labels_of (f_camera_labels f))))).
Proof. exact (camera_keys_distinct f r). Qed.
Print Assumptions C119_camera_keys.
(** No other exception is raised. *)
Theorem C119_errors f e : (all_lidar_boxes f = Err e -> e = AssertionError) /\
  (all_synced_boxes f = Err e -> e = AssertionError \/ e = KeyError) /\
  (all_projected_boxes f = Err e -> e = AssertionError \/ e = KeyError) /\
  (all_camera_boxes f = Err e -> e = AssertionError).
Proof. exact (extraction_errors f e). Qed.
Print Assumptions C119_errors.
(** The box, the id, the type and the motion can be read back, up to zeros. *)
Theorem C119_back f l l' c : is_lidar_box f l c -> is_lidar_box f l' c ->
  l_box l = l_box l' /\ id_of l = id_of l' /\ or_default 0 (l_type l) = or_default 0 (l_type l') /\
  (l_metadata l = None <-> l_metadata l' = None) /\
  (forall m m', l_metadata l = Some m -> l_metadata l' = Some m' ->
     speed_x m = speed_x m' /\ speed_y m = speed_y m' /\ accel_x m = accel_x m' /\ accel_y m = accel_y m' /\
     or_default 0 (speed_z m) = or_default 0 (speed_z m') /\ or_default 0 (accel_z m) = or_default 0 (accel_z m')).
Proof. exact (lidar_box_back f l l' c). Qed.
Print Assumptions C119_back.
(** Missing fields do not raise the documented extraction error. *)
Theorem C119_missing_refuted : exists f l l', f_laser_labels f = [l; l'] /\ (exists c, is_lidar_box f l c) /\ has_box l' = true /\
    (exists m, l_metadata l' = Some m /\ speed_x m <> None /\ speed_y m <> None) /\
    all_lidar_boxes f = Err AssertionError.
Proof. exact (missing_refuted ). Qed.
Print Assumptions C119_missing_refuted.
(** A missing number is not told apart from a zero. *)
Theorem C119_zero_refuted : exists f l l' c, l <> l' /\ extract_lidar_box f l = Ok [c] /\ extract_lidar_box f l' = Ok [c].
Proof. exact (zero_refuted ). Qed.
Print Assumptions C119_zero_refuted.
(** The separator of the projected id is not checked. *)
Theorem C119_separator_refuted : exists f r, all_projected_boxes f = Ok r /\
    NoDup (map id_of (filter has_box (map snd (labels_of (f_projected f))))) /\ ~ NoDup (map pb_key r).
Proof. exact (separator_refuted ). Qed.
Print Assumptions C119_separator_refuted.
(** The camera of the label group is not checked against that of the id. *)
Theorem C119_camera_refuted : exists f c l p, In c (f_projected f) /\ In l (cl_labels c) /\ extract_projected_box f c l = Ok [p] /\
    Some (pk_camera (pb_key p)) <> cl_name c.
Proof. exact (camera_refuted ). Qed.
Print Assumptions C119_camera_refuted.
(** Documented ids of another length are refused. *)
Theorem C119_long_id_refuted : exists f l a v, In l (map snd (labels_of (f_projected f))) /\ documented_id (id_of l) a v /\ all_projected_boxes f = Err KeyError.
Proof. exact (long_id_refuted ). Qed.
Print Assumptions C119_long_id_refuted.
(** Rear cameras are refused. *)
Theorem C119_rear_refuted : exists f l, f_laser_labels f = [l] /\ l_camera l = Some (codes "REAR") /\ l_synced l = Some a_box3 /\
    all_synced_boxes f = Err KeyError.
Proof. exact (rear_refuted ). Qed.
Print Assumptions C119_rear_refuted.
(** An association may have no camera box. *)
Theorem C119_dangling_refuted : exists f boxes keys k, all_camera_boxes f = Ok boxes /\ all_associations f = Ok keys /\ In k keys /\
    forall c, In c boxes -> cb_key c <> {| ck_segment := ak_segment k; ck_time := ak_time k; ck_camera := ak_camera k; ck_object := ak_object k |}.
Proof. exact (dangling_refuted ). Qed.
Print Assumptions C119_dangling_refuted.

(** A frame with two laser labels, one without box, a projected label and an associated camera label. *)
Definition ex_frame : frame1 :=
  frame_of [lidar_label (Some (motion (Some 9))); no_box (lidar_label None)]
    [group 4 [image_label (documented "SIDE_LEFT") None]] [group 4 [image_label (codes "cam") (Some (Some object_22))]].
Example C119_lidar_nonvacuous : exists c, all_lidar_boxes ex_frame = Ok [c] /\ lb_speed c = Some {| x3 := 3; y3 := 4; z3 := 9 |} /\
  lb_difficulty c = Some {| detection2 := 0; tracking2 := 2 |}.
Proof. eexists. split; [vm_compute; reflexivity|]. split; reflexivity. Qed.
Example C119_synced_nonvacuous : exists c d, all_synced_boxes ex_frame = Ok [c; d] /\ sb_camera c = 4.
Proof. do 2 eexists. split; vm_compute; reflexivity. Qed.
Example C119_projected_nonvacuous : exists c, all_projected_boxes ex_frame = Ok [c] /\ pk_object (pb_key c) = object_22 /\ pk_camera (pb_key c) = 4.
Proof. eexists. split; [vm_compute; reflexivity|]. split; reflexivity. Qed.
Example C119_projected_hypothesis : forall l, In l (map snd (labels_of (f_projected ex_frame))) -> has_box l = true ->
  exists a v, documented_id (id_of l) a v /\ List.length a = 22%nat.
Proof. intros l [<-|[]] _. exists object_22, 4. split; [exists (codes "SIDE_LEFT"); split; [reflexivity|constructor]|reflexivity]. Qed.
Example C119_association_nonvacuous : exists c k, all_camera_boxes ex_frame = Ok [c] /\ all_associations ex_frame = Ok [k] /\
  ak_laser k = object_22 /\ ck_object (cb_key c) = ak_object k.
Proof. do 2 eexists. split; [vm_compute; reflexivity|]. split; [vm_compute; reflexivity|]. split; reflexivity. Qed.
