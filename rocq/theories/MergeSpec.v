(** Specification of merging: sums over scenes or frames. *)
From Coq Require Import Permutation.
From Verif Require Import Base HungarianSpec MotSpec MergeModel.
Open Scope Z_scope.

(** Messages of the same shape: same breakdowns and same score cutoffs. *)
Definition shape {M} (cut : M -> option Q) (v : list (measurements M)) : list (breakdown * list (option Q)) :=
  map (fun x => (bd x, map cut (ms x))) v.
(** The measurement for breakdown i and score cutoff j. *)
Definition cell {M} (v : list (measurements M)) (i j : nat) : option M :=
  match nth_error v i with Some x => nth_error (ms x) j | None => None end.

Definition t_counters {D} (m : tmeas D) : list Z :=
  [t_misses m; t_fps m; t_mismatches m; t_matches m; t_objects m].
Definition d_counters {D} (m : dmeas D) : list Z := [d_tps m; d_fps m; d_fns m].

(** Sum of a quantity of cell (i,j) over all messages. *)
Definition zsum_cells {M} (f : M -> Z) (L : list (list (measurements M))) (i j : nat) : Z :=
  Zsum (map (fun v => match cell v i j with Some m => f m | None => 0 end) L).
Definition qsum_cells {M} (f : M -> Q) (L : list (list (measurements M))) (i j : nat) : Q :=
  Qsum (map (fun v => match cell v i j with Some m => f m | None => 0%Q end) L).
Definition concat_cells {M D} (f : M -> list D) (L : list (list (measurements M))) (i j : nat) : list D :=
  concat (map (fun v => match cell v i j with Some m => f m | None => [] end) L).

Definition t_cut {D} (m : tmeas D) : option Q := Some (t_cutoff m).

(** MOTA of a measurement. *)
Definition mota_of {D} (m : tmeas D) : Q :=
  (1 - inject_Z (t_misses m + t_fps m + t_mismatches m) / inject_Z (t_objects m))%Q.

(** Messages that can be merged: for every breakdown, either nothing has been measured yet or the
    breakdowns agree and the score cutoffs agree one by one. *)
Definition mergeable {M} (same : M -> M -> Prop) (a b : measurements M) : Prop :=
  ms a = [] \/ (bd a = bd b /\ Forall2 same (ms a) (ms b)).
Definition same_cutoff {D} (a b : tmeas D) : Prop := (t_cutoff a == t_cutoff b)%Q.
Definition same_dcutoff {D} (a b : dmeas D) : Prop :=
  match d_cutoff a, d_cutoff b with Some x, Some y => (x == y)%Q | _, _ => True end.

(** A detection measurement whose cutoff is set. *)
Definition cutoffs_set {M} (cut : M -> option Q) (v : list (measurements M)) : Prop :=
  forall i j m, cell v i j = Some m -> cut m <> None.

(** Measurements as produced for one frame: counters are counts, the weighted sums add a number in
    [0,1] per true positive. *)
Definition plausible {D} (m : dmeas D) : Prop :=
  0 <= d_tps m /\ 0 <= d_fps m /\ 0 <= d_fns m /\
  (0 <= d_ha m <= inject_Z (d_tps m))%Q /\ (0 <= d_la m <= inject_Z (d_tps m))%Q.
