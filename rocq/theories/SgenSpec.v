(** What the baseline of the scenario generation tutorial should do. *)
From Coq Require Import Reals.
From Verif Require Import Base SimModel SimSpec ExtrapModel ExtrapSpec SgenModel.
Open Scope list_scope.
Open Scope R_scope.

(** Coordinate [f] of the first track of the scenario at step [k], if that track is to be simulated, and 0 if it is not. *)
Definition first_track (f : state R -> R) (sc : scenario R) (k : nat) : R :=
  match tracks sc with
  | t :: _ => match nth_error (states t) 10, nth_error (states t) k with
              | Some now, Some s => if s_valid now then f s else 0
              | _, _ => 0
              end
  | [] => 0
  end.
(** 91 steps at constant velocity, with five times the noise so far. *)
Definition walk (start velocity : R) (noise : nat -> R) : list R :=
  map (fun k => start + INR k * velocity + 5 * sum_upto noise k) (seq 0 91).
(** The length, width and height of the boxes. *)
Definition box_size (ty : Z) (s : R * R * R) : Prop :=
  (ty = 1%Z /\ s = (478 / 100, 207 / 100, 153 / 100)) \/ (ty = 2%Z /\ s = (92 / 100, 82 / 100, 152 / 100)) \/
  (ty = 3%Z /\ s = (170 / 100, 82 / 100, 176 / 100)) \/ (ty <> 1%Z /\ ty <> 2%Z /\ ty <> 3%Z /\ s = (0, 0, 0)).
(** What is known about an agent before it is generated. *)
Definition same_task (t t' : track R) : Prop :=
  track_id t = track_id t' /\ track_type t = track_type t' /\ length (states t) = length (states t') /\
  option_map s_valid (nth_error (states t) 10) = option_map s_valid (nth_error (states t') 10).
(** Two scenarios that agree in all that the challenge lets a method see, if the vehicle of the log is track [j]: the task for
    all agents, and the history of track [j]. *)
Definition same_input (j : nat) (sc sc' : scenario R) : Prop :=
  Forall2 same_task (tracks sc) (tracks sc') /\
  option_map (fun t => firstn 11 (states t)) (nth_error (tracks sc) j) = option_map (fun t => firstn 11 (states t)) (nth_error (tracks sc') j).
