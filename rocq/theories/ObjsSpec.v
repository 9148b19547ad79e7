(** What the file of objects of one frame should contain. *)
From Coq Require Import String Ascii.
From Verif Require Import Base SubmitModel SubmitSpec ToolModel ToolSpec ObjsModel.
Open Scope list_scope.
Open Scope Z_scope.

(** Row [i] of the arrays of a frame, as a 3D box or as a box in the image of a camera. *)
Definition describes (a : arrays) (ctx : string) (ts : Z) (cam : option camera_name) (i : nat) (o : made) : Prop :=
  context_name o = ctx /\ timestamp o = ts /\ nth_error (scores a) i = Some (mscore o) /\ nth_error (classes a) i = Some (mtype o) /\ mcamera o = cam /\
  match cam with
  | None => map Some (map (at_ a i) (seq 0 7)) = [mx o; my o; mz o; ml o; mw o; mh o; mheading o]
  | Some _ => map Some (map (at_ a i) (seq 0 4)) = [mx o; my o; ml o; mw o] /\ mz o = None /\ mh o = None /\ mheading o = None
  end.
(** Not refused by its score or its extents. *)
Definition usable (o : made) : Prop :=
  ~ below (mscore o) min_score /\ (forall x, In (Some x) [ml o; mw o; mh o] -> ~ below x min_extent).
(** The arrays belong together and the classes exist. *)
Definition well_formed (a : arrays) : Prop :=
  length (classes a) = rows a /\ length (scores a) = rows a /\ Forall (fun c => 0 <= c <= 4) (classes a).
(** The only input is the image of this camera. *)
Definition image_of (f : string) (c : camera_name) : Prop :=
  f = match c with
      | CAM_UNKNOWN => "UNKNOWN_IMAGE" | FRONT => "FRONT_IMAGE" | FRONT_LEFT => "FRONT_LEFT_IMAGE" | FRONT_RIGHT => "FRONT_RIGHT_IMAGE"
      | SIDE_LEFT => "SIDE_LEFT_IMAGE" | SIDE_RIGHT => "SIDE_RIGHT_IMAGE" | REAR_LEFT => "REAR_LEFT_IMAGE" | REAR => "REAR_IMAGE"
      | REAR_RIGHT => "REAR_RIGHT_IMAGE"
      end%string.
Fixpoint no_newline (s : string) : Prop := match s with EmptyString => True | String c s' => c <> newline /\ no_newline s' end.
