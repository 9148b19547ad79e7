(** C116: objects from the results of the latency evaluator. *)
From Coq Require Import String Ascii.
From Verif Require Import Base SubmitModel SubmitSpec ToolModel ToolSpec ObjsModel ObjsSpec ObjsProofs.
Open Scope list_scope.
Open Scope Z_scope.

(** One object for each row that is not refused, in order, with the numbers of the row. *)
Theorem C116_objects a ctx ts cam : well_formed a -> columns a = (match cam with None => 7 | Some _ => 4 end)%nat ->
  (forall c, cam = Some c -> exists f, input_fields a = [f] /\ image_of f c) ->
  exists all l, make_object_list a ctx ts = Ok l /\ Forall2 (describes a ctx ts cam) (seq 0 (rows a)) all /\ selects usable all l.
Proof. exact (objects_made a ctx ts cam). Qed.
Print Assumptions C116_objects.
(** Boxes in images need the image of one camera as the only input. *)
Theorem C116_camera a ctx ts : well_formed a -> columns a = 4%nat -> (0 < rows a)%nat ->
  (forall f c, input_fields a = [f] -> ~ image_of f c) -> make_object_list a ctx ts = Err ValueError.
Proof. exact (camera_required a ctx ts). Qed.
Print Assumptions C116_camera.
(** The names of the inputs as they are written by the evaluator and read here. *)
Theorem C116_fields (l : list string) : Forall (fun f => f <> EmptyString /\ no_newline f) l ->
  length (read_lines (join_fields l)) = length l /\ (forall f, l = [f] -> read_lines (join_fields l) = [f]).
Proof. exact (fields_round l). Qed.
Print Assumptions C116_fields.
(** Boxes with another number of columns disappear without an error. *)
Theorem C116_columns_refuted a ctx ts : well_formed a -> columns a <> 7%nat -> columns a <> 4%nat -> make_object_list a ctx ts = Ok [].
Proof. exact (other_columns a ctx ts). Qed.
Print Assumptions C116_columns_refuted.
(** When the checks are those of the submission tool, as a comment says they are. *)
Theorem C116_checks_agree o : ~ In NaN (box_numbers (SubmitModel.obox (as_submitted o))) ->
  (forall x, In (Some x) [ml o; mw o; mh o] -> ~ below x min_extent) -> (usable o <-> submitted (as_submitted o)).
Proof. exact (checks_agree o). Qed.
Print Assumptions C116_checks_agree.
(** In general they are not: either tool keeps objects that the other drops. *)
Theorem C116_checks_refuted : (exists o, submitted (as_submitted o) /\ ~ usable o) /\ (exists o, usable o /\ ~ submitted (as_submitted o)).
Proof. exact (checks_differ ). Qed.
Print Assumptions C116_checks_refuted.

Definition example_arrays (d : nat) (f : string) : arrays :=
  {| rows := 2; columns := d; at_ := fun i k => Num (inject_Z (Z.of_nat (1 + i + k))); classes := [1; 4]; scores := [Num (1 # 2); Num (1 # 100)]; fields := Some f |}.
Example C116_nonvacuous : well_formed (example_arrays 4 "FRONT_LEFT_IMAGE") /\
  match make_object_list (example_arrays 4 (join_fields ["FRONT_LEFT_IMAGE"%string])) "c" 7 with
  | Ok [o] => mcamera o = Some FRONT_LEFT /\ mtype o = 1 /\ mw o = Some (Num 4) /\ mh o = None
  | _ => False
  end /\
  match make_object_list (example_arrays 7 "") "c" 7 with Ok [o] => mh o = Some (Num 6) | _ => False end.
Proof. repeat split; try reflexivity. repeat constructor; discriminate. Qed.
Example C116_fields_nonvacuous : read_lines (join_fields ["FRONT_IMAGE"%string; "TOP_RANGE_IMAGE_FIRST_RETURN"%string]) =
  [("FRONT_IMAGE" ++ String newline EmptyString)%string; "TOP_RANGE_IMAGE_FIRST_RETURN"%string].
Proof. reflexivity. Qed.
