(** What some further theorems about road samples (C41), column names (C28) and likelihoods (C34) talk about. *)
From Coq Require Import QArith String.
From Verif Require Import Base ComponentModel MetametricModel MetametricSpec.
Open Scope list_scope.

(** The value at [a] of the cubic through [p1] at 0 and [p2] at 1 whose slopes there are those between the neighbours. *)
Definition on_spline (p0 p1 p2 p3 a v : Q) : Prop :=
  exists k1 k2 k3, (k1 == (p2 - p0) / 2 /\ p1 + k1 + k2 + k3 == p2 /\ k1 + 2 * k2 + 3 * k3 == (p3 - p1) / 2 /\
                    v == p1 + k1 * a + k2 * (a * a) + k3 * (a * a * a))%Q.
(** The value at [a] of the line through [p1] at 0 and [p2] at 1. *)
Definition on_line (p1 p2 a v : Q) : Prop := (v == (1 - a) * p1 + a * p2)%Q.

(** The fields that lead from a type down to a leaf, with a mark for repeated ones. *)
Inductive leads : ty -> list (string * bool) -> Prop :=
| Leads_here : leads Leaf []
| Leads_down k fs n r t p : In (n, r, t) fs -> leads t p -> leads (Node k fs) ((n, r) :: p).
Definition marked (f : string * bool) : string := (fst f ++ if snd f then "[*]" else "")%string.
(** Names joined by dots. *)
Definition dotted (l : list (string * bool)) : string := String.concat "." (map marked l).

(** The log-likelihoods that count for a feature. *)
Definition counted (b : bundle) (m : metric) (r : list (option Q)) : Prop :=
  match m with
  | LinearSpeed | AngularSpeed => selected (log_likelihood b m) (concat (speed_valid b)) r
  | LinearAcceleration | AngularAcceleration => selected (log_likelihood b m) (concat (accel_valid b)) r
  | DistanceToNearestObject | DistanceToRoadEdge => selected (log_likelihood b m) (concat (log_valid b)) r
  | TimeToCollision => exists v, selected (log_likelihood b m) (concat v) r /\
      length v = Nat.min (length (log_valid b)) (length (log_is_vehicle b)) /\
      forall o row car, nth_error (log_valid b) o = Some row -> nth_error (log_is_vehicle b) o = Some car ->
        nth_error v o = Some (if car then row else map (fun _ => false) row)
  | CollisionIndication | OffroadIndication | TrafficLightViolation => r = log_likelihood b m
  end.
