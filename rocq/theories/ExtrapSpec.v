(** What the baseline of the sim agents tutorial should do. *)
From Coq Require Import Reals.
From Verif Require Import Base SimModel SimSpec ExtrapModel.
Open Scope list_scope.
Open Scope R_scope.

(** Scenarios the baseline works for: all tracks as long as each other, reaching the eleventh step, at least one agent to
    simulate, and no ambiguity about which track an agent is. *)
Definition simulable (sc : scenario R) : Prop :=
  (exists n, (10 < n)%nat /\ uniform sc n) /\ (exists id, required sc id) /\
  (forall id, required sc id -> occurs_once (map track_id (tracks sc)) id).
(** The tracks of the agents to simulate, in order. *)
Definition agents (sc : scenario R) : list (track R) := filter valid_now (tracks sc).
(** How far a coordinate of a track went in the last logged step, as far as this is known. *)
Definition displacement (f : state R -> R) (t : track R) : R :=
  match nth_error (states t) 10, nth_error (states t) 9 with
  | Some now, Some before => if s_valid now then if s_valid before then f now - f before else 0 else 0
  | _, _ => 0
  end.
(** The largest number of a list. *)
Definition largest (m : R) (l : list R) : Prop := In m l /\ forall x, In x l -> x <= m.
(** The sum of the first [n] values. *)
Fixpoint sum_upto (f : nat -> R) (n : nat) : R := match n with O => 0 | S k => sum_upto f k + f k end.
(** Constant velocity from a start, with [m] times the noise so far, for the 80 steps. *)
Definition drift (start velocity m : R) (noise : nat -> R) : list R :=
  map (fun k => start + INR (S k) * velocity + m * sum_upto noise (S k)) (seq 0 80).
