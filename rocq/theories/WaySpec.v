(** Waypoints in plain terms.  Time is counted in steps: the past is 0 .. P - 1, the present is P and the future
    is P + 1 .. P + F.  A waypoint covers as many future steps as any other one. *)
From Coq Require Import Reals List Arith Lra Bool.
From Verif Require Import Base WayModel.
Import ListNotations.
Open Scope R_scope.

(** The task can be set up: the future splits into equal waypoints no longer than the known history. *)
Definition can_split (c : config) (size : nat) : Prop :=
  (0 < num_waypoints c /\ num_future_steps c = num_waypoints c * size /\ size <= num_past_steps c + 1)%nat.
(** The series of a class have a value for every step; the flow at [i] leads from the time [i + size] back to [i]. *)
Definition well_shaped (c : config) (size : nat) (t : timestep_grids) : Prop :=
  length (past_occupancy t) = num_past_steps c /\ length (current_occupancy t) = 1%nat /\
  length (future_observed_occupancy t) = num_future_steps c /\ length (future_occluded_occupancy t) = num_future_steps c /\
  length (all_occupancy t) = (num_past_steps c + 1 + num_future_steps c)%nat /\
  length (all_flow t) = (num_past_steps c + 1 + num_future_steps c - size)%nat.

Definition for_all_classes {A} (P : A -> Prop) (g : classes A) : Prop := P (vehicles g) /\ P (pedestrians g) /\ P (cyclists g).
Definition for_each_class {A B} (P : A -> B -> Prop) (g : classes A) (h : classes B) : Prop :=
  P (vehicles g) (vehicles h) /\ P (pedestrians g) (pedestrians h) /\ P (cyclists g) (cyclists h).

(** The values of a series from a step on. *)
Definition window {A} (d : A) (l : list A) (from n : nat) : list A := map (fun i => nth (from + i) l d) (seq 0 n).
Definition greatest (v : R) (l : list R) : Prop := In v l /\ forall u, In u l -> u <= v.

(** What waypoint [k] shows of a series whose steps from [from] on are to be split into waypoints. *)
Definition shows_waypoint (c : config) (size from k : nat) (series : list R) (shown : option R) : Prop :=
  if cumulative_waypoints c then exists v, shown = Some v /\ greatest v (window 0 series (from + k * size) size)
  else shown = Some (nth (from + k * size + (size - 1)) series 0).

(** A mean over the steps that satisfy a condition; zero if there is none. *)
Definition total (f : R * R -> R) (l : list (R * R)) : R := fold_right (fun v s => f v + s) 0 l.
Definition mean_where (keep : R * R -> bool) (f : R * R -> R) (l : list (R * R)) : R :=
  match filter keep l with
  | [] => 0
  | kept => total f kept / INR (length kept)
  end.
Definition nonzero (x : R) : bool := if Req_EM_T x 0 then false else true.
Definition moving (v : R * R) : bool := nonzero (fst v) || nonzero (snd v).
Definition speed (v : R * R) : R := sqrt (fst v * fst v + snd v * snd v).

(** Occupied cells hold one, the others zero. *)
Definition binary (l : list R) : Prop := Forall (fun x => x = 0 \/ x = 1) l.
Definition occupied_at (get : timestep_grids -> list R) (t : classes timestep_grids) (i : nat) : Prop :=
  nth i (get (vehicles t)) 0 = 1 \/ nth i (get (pedestrians t)) 0 = 1 \/ nth i (get (cyclists t)) 0 = 1.
