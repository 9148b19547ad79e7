(** Specification of the conversion of motion challenge submissions. *)
From Coq Require Import String.
From Verif Require Import Base MotionModel MotionSubmissionModel.

(** As many x as y coordinates. *)
Definition matched (p : positions) : Prop := List.length (po_x p) = List.length (po_y p).
(** What the evaluation should see of a submission: for single predictions, one set of alternatives per
    object, each alternative one trajectory with its own confidence; for a joint prediction, one set of
    alternatives, each with all its trajectories. *)
Definition single_image (o : single) : mmp :=
  map (fun s => {| jt_conf := sd_conf s; jt_trajs := [{| tj_id := sg_id o; tj_x := po_x (sd_traj s); tj_y := po_y (sd_traj s) |}] |}) (sg_trajs o).
Definition joint_image (j : scored_joint) : joint :=
  {| jt_conf := sj_conf j; jt_trajs := map (fun o => {| tj_id := ob_id o; tj_x := po_x (ob_traj o); tj_y := po_y (ob_traj o) |}) (sj_trajs j) |}.
Definition image (c : challenge) : preds :=
  {| pr_id := ch_id c;
     pr_mms := match ch_set c with SinglePreds l => map single_image l | JointPred l => [map joint_image l] | NoPreds => [] end |}.
Definition well_formed (c : challenge) : Prop :=
  match ch_set c with
  | SinglePreds l => forall o s, In o l -> In s (sg_trajs o) -> matched (sd_traj s)
  | JointPred l => forall j, In j l -> List.length (sj_trajs j) = 2%nat /\ forall o, In o (sj_trajs j) -> matched (ob_traj o)
  | NoPreds => False
  end.
