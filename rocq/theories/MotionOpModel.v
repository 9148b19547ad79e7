(** The motion metrics op: metrics/ops/motion_metrics_ops.cc (in src/waymo_open_dataset), from the tensors to the
    tensors, out of the models of its parts (ParseModel.v, MotionModel.v, BreakdownModel.v).

    Conventions.
    - The rows of the output are given together: position i of each output tensor is row i.
    - The order in which the hash map of the scenarios is traversed is not specified: it is an argument.
    - The scenarios are evaluated by a pool of threads that write to different places; they are evaluated in turn here.
    - CheckFailed is a failed CHECK. *)
From Coq Require Import String.
From Verif Require Import Base ResultLib MotionModel BreakdownModel.
From Verif Require ParseModel.
Open Scope list_scope.
Open Scope Z_scope.

(** The messages that ParseScenarioAndPredictonsFromTensors fills, as the metrics read them. *)
Definition to_state (s : ParseModel.state) : state :=
  {| st_x := ParseModel.s_x s; st_y := ParseModel.s_y s; st_heading := ParseModel.s_heading s; st_vx := ParseModel.s_vx s;
     st_vy := ParseModel.s_vy s; st_len := ParseModel.s_length s; st_wid := ParseModel.s_width s; st_valid := ParseModel.s_valid s |}.
Definition to_track (t : ParseModel.track) : track :=
  {| tr_id := ParseModel.t_id t; tr_type := ParseModel.t_type t; tr_states := map to_state (ParseModel.t_states t) |}.
Definition to_scenario (s : ParseModel.scenario) : scenario :=
  {| sc_id := ParseModel.sc_id s; sc_tracks := map to_track (ParseModel.sc_tracks s); sc_predict := map fst (ParseModel.sc_required s) |}.
Definition to_traj (t : ParseModel.trajectory) : traj :=
  {| tj_id := ParseModel.tj_object t; tj_x := ParseModel.tj_x t; tj_y := ParseModel.tj_y t |}.
Definition to_joint (j : ParseModel.joint) : joint :=
  {| jt_conf := ParseModel.jt_confidence j; jt_trajs := map to_traj (ParseModel.jt_trajectories j) |}.
Definition to_preds (p : ParseModel.predictions) : preds :=
  {| pr_id := ParseModel.pr_id p; pr_mms := map (map to_joint) (ParseModel.pr_groups p) |}.

(** ** CreateOutput (motion_metrics_ops.cc:114-159) *)
Record row := { min_ade : Q; min_fde : Q; out_miss_rate : Q; out_overlap_rate : Q; mean_average_precision : Q }.
Definition no_row : row :=
  {| min_ade := -1; min_fde := -1; out_miss_rate := -1; out_overlap_rate := -1; mean_average_precision := -1 |}.
Definition to_row (b : bundle) : row :=
  {| min_ade := b_ade b; min_fde := b_fde b; out_miss_rate := b_miss b; out_overlap_rate := b_overlap b; mean_average_precision := b_map b |}.
(** 116-118: TYPE_VEHICLE, TYPE_PEDESTRIAN, TYPE_CYCLIST (protos/scenario.proto:57-61). *)
Definition expected_types : list Z := [1; 2; 3].
(** 122-131: the key of a bundle; a bundle without object filter, for TYPE_UNSET, has type -1 (ComputeBundle,
    motion_metrics.cc:1064-1068). The map is a list of its entries. *)
Definition bundle_key (b : bundle) : Z * Z := (if b_type b =? 0 then -1 else b_type b, b_step b).
Definition key_eqb (a b : Z * Z) : bool := (fst a =? fst b) && (snd a =? snd b).
Fixpoint put_index (k : Z * Z) (i : nat) (m : list ((Z * Z) * nat)) : list ((Z * Z) * nat) :=
  match m with
  | [] => [(k, i)]
  | (k', i') :: m' => if key_eqb k k' then (k', i) :: m' else (k', i') :: put_index k i m'
  end.
Fixpoint find_index (k : Z * Z) (m : list ((Z * Z) * nat)) : option nat :=
  match m with
  | [] => None
  | (k', i) :: m' => if key_eqb k k' then Some i else find_index k m'
  end.
Definition indices (bs : list bundle) : list ((Z * Z) * nat) :=
  fold_left (fun m '(i, b) => put_index (bundle_key b) i m) (combine (seq 0 (List.length bs)) bs) [].
(** 134-157. *)
Definition output_row (bs : list bundle) (t s : Z) : row :=
  match find_index (t, s) (indices bs) with
  | Some i => match nth_error bs i with Some b => to_row b | None => no_row end
  | None => no_row
  end.
Definition create_output (steps : list Z) (bs : list bundle) : list row :=
  concat (map (fun t => map (output_row bs t) steps) expected_types).

(** ** ComputeImpl (162-217) *)
(** 193-213: the statistics of the scenarios, in the order of the traversal, accumulated; a status that is not ok fails a CHECK. *)
Definition checked {A} (r : result A) : result A := match r with Ok a => Ok a | Err _ => Err CheckFailed end.
Definition accumulate (g : geom) (c : mcfg) (l : list (preds * scenario)) : result bstats :=
  foldM (fun tot ps => do st <- checked (compute_stats g c (fst ps) (snd ps)); bs_acc tot st) l [].
Definition compute_rows (g : geom) (c : mcfg) (l : list (preds * scenario)) : result (list row) :=
  do tot <- accumulate g c l;
  Ok (create_output (map m_step (step_cfgs c)) (map to_bundle tot)).
(** [traversed] is the contents of the map in the order of its iterator. *)
Definition pairs (parsed : list (string * (ParseModel.scenario * ParseModel.predictions))) : list (preds * scenario) :=
  map (fun e => (to_preds (snd (snd e)), to_scenario (fst (snd e)))) parsed.
Definition motion_op (g : geom) (c : mcfg)
  (traversed : list (string * (ParseModel.scenario * ParseModel.predictions)) -> list (string * (ParseModel.scenario * ParseModel.predictions)))
  (inp : ParseModel.motion_inputs) : result (list row) :=
  do parsed <- ParseModel.parse_motion inp;
  compute_rows g c (pairs (traversed parsed)).
