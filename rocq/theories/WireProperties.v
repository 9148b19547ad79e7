(** C113: reading files of objects and submissions. *)
From Verif Require Import Base WireModel WireSpec WireProofs.
Open Scope Z_scope.

(** Reading back what was written. *)
Theorem C113_wire_round_trip fs : Forall field_ok fs -> parse (serialize fs) = Some fs.
Proof. exact (parse_round fs). Qed.
Print Assumptions C113_wire_round_trip.
(** A file of objects is read as those objects. *)
Theorem C113_objects (valid_object valid_polygon : list Z -> bool) objs : Forall (fun b => fits_varint (Z.of_nat (length b)) /\ valid_object b = true) objs ->
  read_objects_file valid_object valid_polygon (objects_file objs) = Ok objs.
Proof. exact (objects_read valid_object valid_polygon objs). Qed.
Print Assumptions C113_objects.
(** A submission is read as its results, unless its name looks like a message. *)
Theorem C113_submission (valid_object valid_polygon : list Z -> bool) fs name objs : submission_ok fs name objs ->
  Forall (fun b => fits_varint (Z.of_nat (length b)) /\ valid_object b = true) objs -> ~ looks_like_message name ->
  read_objects_file valid_object valid_polygon (serialize fs) = Ok objs.
Proof. exact (submission_kept valid_object valid_polygon fs name objs). Qed.
Print Assumptions C113_submission.
(** If the name does, no results are read. *)
Theorem C113_submission_lost (valid_object valid_polygon : list Z -> bool) fs name objs l : submission_ok fs name objs ->
  Forall (fun b => fits_varint (Z.of_nat (length b)) /\ valid_object b = true) objs -> parse name = Some l -> (forall b, ~ In (1, LEN b) l) ->
  read_objects_file valid_object valid_polygon (serialize fs) = Ok [].
Proof. exact (submission_lost valid_object valid_polygon fs name objs l). Qed.
Print Assumptions C113_submission_lost.
(** MyNet is such a name. *)
Theorem C113_submission_refuted : exists fs name objs, submission_ok fs name objs /\ objs <> [] /\
  forall valid_object valid_polygon, Forall (fun b => valid_object b = true) objs ->
    read_objects_file valid_object valid_polygon (serialize fs) = Ok [].
Proof. exact (submission_refuted ). Qed.
Print Assumptions C113_submission_refuted.

Example C113_nonvacuous : read_objects_file (fun _ => true) (fun _ => true)
  (serialize [(1, VARINT 2); (2, LEN [74; 111; 101; 78; 101; 116]); (11, LEN (objects_file [[40; 7]; [40; 8]]))]) = Ok [[40; 7]; [40; 8]].
Proof. reflexivity. Qed.
Example C113_joenet : ~ looks_like_message [74; 111; 101; 78; 101; 116].
Proof. intros [fs E]. discriminate E. Qed.
