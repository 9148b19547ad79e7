(** Model of the motion prediction metrics: metrics/motion_metrics.cc, motion_metrics.h and
    motion_metrics_utils.cc (paths below /repo/src/waymo_open_dataset/).
    Simplifications: C++ [int] is Z (no overflow); float and double are exact rationals; hypot,
    rotations, the angle normalisation, pi/6 and the polygon intersection test are parameters
    collected in [geom]; custom_metrics_fn is not modelled. *)
From Coq Require Import String.
From Verif Require Import Base ResultLib CutoffModel.
Open Scope Z_scope.

(** MotionMetricsConfig.MeasurementStepConfig (protos/motion_metrics.proto). *)
Record step_cfg := { m_step : Z; lat_thr : Q; lon_thr : Q }.
(** MotionMetricsConfig. *)
Record mcfg := { tsps : Z; psps : Z; hist : Z; fut : Z; spd_lo : Q; spd_hi : Q; scl_lo : Q; scl_hi : Q;
                 step_cfgs : list step_cfg; max_preds : Z }.
(** ObjectState, Track, Scenario (protos/scenario.proto), only the fields that are read. *)
Record state := { st_x : Q; st_y : Q; st_heading : Q; st_vx : Q; st_vy : Q; st_len : Q; st_wid : Q; st_valid : bool }.
Record track := { tr_id : Z; tr_type : Z; tr_states : list state }.
Record scenario := { sc_id : string; sc_tracks : list track; sc_predict : list Z }.
(** SingleTrajectory, JointTrajectories, MultimodalPrediction, ScenarioPredictions. *)
Record traj := { tj_id : Z; tj_x : list Q; tj_y : list Q }.
Record joint := { jt_conf : Q; jt_trajs : list traj }.
Definition mmp := list joint.
Record preds := { pr_id : string; pr_mms : list mmp }.

(** What PredictionToPolygon builds its box from: the positions used for the heading and the size;
    [None] is the empty polygon. *)
Definition pbox := option ((Q * Q) * list (Q * Q) * (Q * Q)).
(** The parameters: std::hypot, Vec2d::Rotate, NormalizeAngle, M_PI / 6, polygon intersection. *)
Record geom := { g_hypot : Q -> Q -> Q; g_rotate : Q -> Q * Q -> Q * Q; g_norm : Q -> Q; g_pi6 : Q;
                 g_overlap : pbox -> state -> bool }.

(** Element access of a repeated field with an int index; out of range is an error value. *)
Definition at_ {A} (l : list A) (i : Z) : result A :=
  if i <? 0 then Err IndexError else
  match nth_error l (Z.to_nat i) with Some a => Ok a | None => Err IndexError end.

(** C++ int division: truncating; division by zero is an error value. *)
Definition cdiv (a b : Z) : result Z := if b =? 0 then Err RuntimeError else Ok (Z.quot a b).
Definition crem (a b : Z) : result Z := if b =? 0 then Err RuntimeError else Ok (Z.rem a b).

(** track_future_samples * prediction_steps_per_second / track_steps_per_second
    (motion_metrics.cc:81-83, 175-177). *)
Definition prediction_steps (c : mcfg) : result Z := cdiv (fut c * psps c) (tsps c).
(** ValidateConfig (motion_metrics.cc:67-91). *)
Definition validate_config (c : mcfg) : result unit :=
  if psps c >? tsps c then Err ValueError else
  do r <- crem (tsps c) (psps c);
  if negb (r =? 0) then Err ValueError else
  do n <- prediction_steps c;
  if existsb (fun s => (m_step s >? n) || (m_step s <? 0)) (step_cfgs c) then Err ValueError else Ok tt.

(** std::set<int>: membership is all that matters; [set_eq] is operator==. *)
Definition zmem (x : Z) (l : list Z) : bool := existsb (Z.eqb x) l.
Definition set_eq (a b : list Z) : bool := forallb (fun x => zmem x b) a && forallb (fun x => zmem x a) b.
Definition traj_ids (j : joint) : list Z := map tj_id (jt_trajs j).

(** ValidateMultiModalPrediction (motion_metrics.cc:95-126). [seen] is trajectory_ids. Returns the
    ids inserted into prediction_ids. *)
Fixpoint validate_joints (n : Z) (seen : list Z) (m : mmp) : result (list Z) :=
  match m with
  | [] => Ok []
  | j :: m' =>
      if existsb (fun t => negb (Z.of_nat (length (tj_x t)) =? n) || negb (Z.of_nat (length (tj_y t)) =? n)) (jt_trajs j)
      then Err ValueError else
      let ids := traj_ids j in
      let seen' := match seen with [] => ids | _ :: _ => seen end in
      if negb (set_eq ids seen') then Err ValueError else
      do more <- validate_joints n seen' m'; Ok (ids ++ more)
  end.
(** The required ids (motion_metrics.cc:134-143). *)
Definition required_ids (s : scenario) : result (list Z) :=
  mapM (fun i => if (i >=? Z.of_nat (length (sc_tracks s))) || (i <? 0) then Err ValueError else
                 do t <- at_ (sc_tracks s) i; Ok (tr_id t)) (sc_predict s).
(** ValidatePredictions with ValidateRequiredIds (motion_metrics.cc:130-196). *)
Definition validate_predictions (c : mcfg) (p : preds) (s : scenario) : result unit :=
  if negb (String.eqb (pr_id p) (sc_id s)) then Err ValueError else
  do n <- prediction_steps c;
  do ids <- mapM (validate_joints n []) (pr_mms p);
  do req <- required_ids s;
  if set_eq (concat ids) req then Ok tt else Err ValueError.

(** absl::flat_hash_map<int, const Track*>: last insertion wins; lookups only. *)
Definition idmap := list (Z * track).
Definition get_track (i : Z) (m : idmap) : result track :=
  match find (fun p => fst p =? i) m with Some p => Ok (snd p) | None => Err ValueError end.
(** Construction (motion_metrics.cc:1029-1038); a later entry is put in front, so that it is found. *)
Definition build_idmap (s : scenario) : result idmap :=
  foldM (fun m i => if (i >=? Z.of_nat (length (sc_tracks s))) || (i <? 0) then Err ValueError else
                    do t <- at_ (sc_tracks s) i; Ok ((tr_id t, t) :: m)) (sc_predict s) [].
(** ValidateTracks (motion_metrics.cc:199-209): every key's entry, the one a lookup finds. *)
Definition validate_tracks (c : mcfg) (m : idmap) : result unit :=
  if forallb (fun p => match get_track (fst p) m with
                       | Ok t => Z.of_nat (length (tr_states t)) =? hist c + fut c + 1
                       | Err _ => true end) m then Ok tt else Err ValueError.
(** ValidatePredictionIds (motion_metrics.cc:213-229). *)
Definition validate_prediction_ids (p : preds) (m : idmap) : result unit :=
  if forallb (forallb (fun j => forallb (fun t => existsb (fun q => fst q =? tj_id t) m) (jt_trajs j))) (pr_mms p)
  then Ok tt else Err ValueError.

(** PredictionToTrackStep (motion_metrics_utils.cc:229-234), CurrentTrackStep (237-239). *)
Definition track_step (c : mcfg) (i : Z) : result Z :=
  do ratio <- cdiv (tsps c) (psps c); Ok ((i + 1) * ratio + hist c).

(** DisplacementAtStep (motion_metrics.cc:233-249). *)
Definition displacement_at (g : geom) (c : mcfg) (t : traj) (tr : track) (i : Z) : result (option Q) :=
  do k <- track_step c i;
  do s <- at_ (tr_states tr) k;
  if negb (st_valid s) then Ok None else
  do x <- at_ (tj_x t) i;
  do y <- at_ (tj_y t) i;
  Ok (Some (g_hypot g (x - st_x s)%Q (y - st_y s)%Q)).
(** Integers 0..n (loops [for (int i = 0; i <= n; ++i)]). *)
Definition upto (n : Z) : list Z := map Z.of_nat (seq 0 (Z.to_nat (n + 1))).
(** AverageDisplacement of a trajectory (motion_metrics.cc:289-309). The body repeats
    DisplacementAtStep. *)
Definition average_displacement (g : geom) (c : mcfg) (t : traj) (tr : track) (n : Z) : result (option Q) :=
  do r <- foldM (fun (acc : Q * Z) i =>
       do d <- displacement_at g c t tr i;
       match d with Some d => Ok ((fst acc + d)%Q, snd acc + 1) | None => Ok acc end) (upto n) (0%Q, 0);
  let '(error, count) := r in
  if count =? 0 then Ok None else Ok (Some (error / inject_Z count)%Q).
(** AverageDisplacement of a joint prediction (motion_metrics.cc:317-356). The loop stops at the
    first trajectory without valid states. With no trajectories the code computes 0/0, a NaN that no
    comparison selects; it is None here. *)
Fixpoint joint_loop (g : geom) (c : mcfg) (ids : idmap) (n : Z) (final : bool) (ts : list traj) (total : Q) (count : Z)
  : result (Q * Z) :=
  match ts with
  | [] => Ok (total, count)
  | t :: ts' =>
      do tr <- get_track (tj_id t) ids;
      do d <- (if final then displacement_at g c t tr n else average_displacement g c t tr n);
      match d with
      | None => Ok (total, count)
      | Some d => joint_loop g c ids n final ts' (total + d)%Q (count + 1)
      end
  end.
Definition joint_displacement (g : geom) (c : mcfg) (ids : idmap) (n : Z) (final : bool) (j : joint) : result (option Q) :=
  do r <- joint_loop g c ids n final (jt_trajs j) 0%Q 0;
  let '(total, count) := r in
  if negb (count =? Z.of_nat (length (jt_trajs j))) then Ok None else
  if count =? 0 then Ok None else Ok (Some (total / inject_Z count)%Q).

(** The loops over joint predictions that stop after K = max_predictions entries
    ([if (++count == config.max_predictions()) break;]). *)
Fixpoint first_k {A} (count K : Z) (l : list A) : list A :=
  match l with
  | [] => []
  | a :: l' => a :: (if count + 1 =? K then [] else first_k (count + 1) K l')
  end.
(** Accumulator (motion_metrics.h:40-61). *)
Record accum := { a_total : Q; a_num : Z }.
Definition acc0 : accum := {| a_total := 0; a_num := 0 |}.
Definition acc_add (a : accum) (v : Q) : accum := {| a_total := a_total a + v; a_num := a_num a + 1 |}.
Definition acc_acc (a b : accum) : accum := {| a_total := a_total a + a_total b; a_num := a_num a + a_num b |}.
Definition acc_mean (a : accum) : Q := if a_num a =? 0 then 0 else (a_total a / inject_Z (a_num a))%Q.

(** ComputeMinAverageDisplacement (motion_metrics.cc:363-401). [None] is the initial DBL_MAX, assumed
    larger than every displacement. *)
Definition min_displacement (g : geom) (c : mcfg) (ids : idmap) (n : Z) (final : bool) (m : mmp) : result accum :=
  do best <- foldM (fun (best : option Q) j =>
       do d <- joint_displacement g c ids n final j;
       match d with
       | None => Ok best
       | Some d => Ok (match best with None => Some d | Some b => if Qlt_bool d b then Some d else Some b end)
       end) (first_k 0 (max_preds c) m) None;
  Ok (match best with None => acc0 | Some b => acc_add acc0 b end).

(** SpeedScaleFactor (motion_metrics.cc:405-435). *)
Definition speed_scale (g : geom) (c : mcfg) (tr : track) : result Q :=
  if Z.of_nat (length (tr_states tr)) <? hist c then Err ValueError else
  if Qle_bool (spd_hi c) (spd_lo c) then Err ValueError else
  do s <- at_ (tr_states tr) (hist c);
  let speed := g_hypot g (st_vx s) (st_vy s) in
  if Qlt_bool speed (spd_lo c) then Ok (scl_lo c) else
  if Qlt_bool (spd_hi c) speed then Ok (scl_hi c) else
  let fraction := ((speed - spd_lo c) / (spd_hi c - spd_lo c))%Q in
  Ok (scl_lo c + (scl_hi c - scl_lo c) * fraction)%Q.

(** GetDisplacementAtStep (motion_metrics.cc:264-284): (longitudinal, lateral). *)
Definition displacement_vec (g : geom) (c : mcfg) (t : traj) (tr : track) (i : Z) : result (option (Q * Q)) :=
  do k <- track_step c i;
  do s <- at_ (tr_states tr) k;
  if negb (st_valid s) then Ok None else
  do x <- at_ (tj_x t) i;
  do y <- at_ (tj_y t) i;
  Ok (Some (g_rotate g (- st_heading s)%Q (x - st_x s, y - st_y s)%Q)).
(** The loop of IsMatch (motion_metrics.cc:446-478). A zero scale (division by zero in the code) is
    outside the model and gives an error value. *)
Fixpoint match_loop (g : geom) (c : mcfg) (ids : idmap) (sc : step_cfg) (ts : list traj) : result (list (Q * Q)) :=
  match ts with
  | [] => Ok []
  | t :: ts' =>
      do tr <- get_track (tj_id t) ids;
      do d <- displacement_vec g c t tr (m_step sc);
      match d with
      | None => Ok []
      | Some (lon, lat) =>
          do scale <- speed_scale g c tr;
          if Qeq_bool scale 0 then Err RuntimeError else
          do ds <- match_loop g c ids sc ts'; Ok ((lon / scale, lat / scale)%Q :: ds)
      end
  end.
(** IsMatch (motion_metrics.cc:437-498). *)
Definition is_match (g : geom) (c : mcfg) (ids : idmap) (sc : step_cfg) (j : joint) : result (option bool) :=
  do ds <- match_loop g c ids sc (jt_trajs j);
  if negb (Z.of_nat (length ds) =? Z.of_nat (length (jt_trajs j))) then Ok None else
  Ok (Some (negb (existsb (fun d => Qlt_bool (lat_thr sc) (Qabs (snd d)) || Qlt_bool (lon_thr sc) (Qabs (fst d))) ds))).

(** ComputeMissRate (motion_metrics.cc:501-544). *)
Fixpoint miss_loop (g : geom) (c : mcfg) (ids : idmap) (sc : step_cfg) (m : mmp) (valid : bool) : result accum :=
  match m with
  | [] => Ok (if valid then acc_add acc0 1 else acc0)
  | j :: m' =>
      do tp <- is_match g c ids sc j;
      match tp with
      | Some true => Ok (acc_add acc0 0)
      | Some false => miss_loop g c ids sc m' true
      | None => miss_loop g c ids sc m' valid
      end
  end.
Definition miss_rate (g : geom) (c : mcfg) (ids : idmap) (sc : step_cfg) (m : mmp) : result accum :=
  miss_loop g c ids sc (first_k 0 (max_preds c) m) false.

(** GetNormalizedConfidences (motion_metrics_utils.cc:287-307). *)
Definition qsum (l : list Q) : Q := fold_right Qplus 0%Q l.
Definition normalized_confidences (m : mmp) : list Q :=
  match m with
  | [] => []
  | _ => let confs := map jt_conf m in
         let sum := qsum confs in
         let nominal := (1 / inject_Z (Z.of_nat (length m)))%Q in
         map (fun x => if Qeq_bool sum 0 then nominal else (x / sum)%Q) confs
  end.
(** std::vector::resize with zero fill; a negative size throws. *)
Definition resize (l : list Q) (n : Z) : result (list Q) :=
  if n <? 0 then Err RuntimeError else
  Ok (firstn (Z.to_nat n) l ++ repeat 0%Q (Z.to_nat n - length l)).
(** std::max_element as an index: the first maximum; 0 for an empty range. *)
Fixpoint argmax (l : list Q) (i best : nat) (v : Q) : nat :=
  match l with
  | [] => best
  | x :: l' => if Qlt_bool v x then argmax l' (S i) i x else argmax l' (S i) best v
  end.
Definition max_element (l : list Q) : nat := match l with [] => O | x :: l' => argmax l' 1 0 x end.

(** PredictionToPolygon (motion_metrics_utils.cc:246-279), use_current_box_dimensions = false. *)
Definition position (t : traj) (i : Z) : result (Q * Q) := do x <- at_ (tj_x t) i; do y <- at_ (tj_y t) i; Ok (x, y).
Definition prediction_box (c : mcfg) (t : traj) (i : Z) (tr : track) : result pbox :=
  do center <- position t i;
  let n := Z.of_nat (length (tj_x t)) in
  if n <? 2 then Ok None else
  do pts <- (if i =? 0 then (do a <- position t 1; do b <- position t 0; Ok [a; b])
             else if i =? n - 1 then (do a <- position t i; do b <- position t (i - 1); Ok [a; b])
             else (do a <- position t (i - 1); do b <- position t i; do d <- position t (i + 1); Ok [d; b; a]));
  do k <- track_step c i;
  do s <- at_ (tr_states tr) k;
  Ok (Some (center, pts, (st_len s, st_wid s))).
(** The inner loop over tracks (motion_metrics.cc:584-602): is some other track overlapped? *)
Fixpoint overlap_tracks (g : geom) (c : mcfg) (i : Z) (pid : Z) (b : pbox) (trs : list track) : result bool :=
  match trs with
  | [] => Ok false
  | tr :: trs' =>
      if tr_id tr =? pid then overlap_tracks g c i pid b trs' else
      do k <- track_step c i;
      do s <- at_ (tr_states tr) k;
      if negb (st_valid s) then overlap_tracks g c i pid b trs' else
      if g_overlap g b s then Ok true else overlap_tracks g c i pid b trs'
  end.
Fixpoint overlap_steps (g : geom) (c : mcfg) (ids : idmap) (t : traj) (trs : list track) (is : list Z) : result bool :=
  match is with
  | [] => Ok false
  | i :: is' =>
      do tr <- get_track (tj_id t) ids;
      do b <- prediction_box c t i tr;
      do o <- overlap_tracks g c i (tr_id tr) b trs;
      if o : bool then Ok true else overlap_steps g c ids t trs is'
  end.
Fixpoint overlap_trajs (g : geom) (c : mcfg) (ids : idmap) (n : Z) (trs : list track) (ts : list traj) : result bool :=
  match ts with
  | [] => Ok false
  | t :: ts' =>
      do o <- overlap_steps g c ids t trs (upto n);
      if o : bool then Ok true else overlap_trajs g c ids n trs ts'
  end.
(** tracks_to_test_indices (motion_metrics.cc:553-559). *)
Fixpoint current_tracks (c : mcfg) (trs : list track) : result (list track) :=
  match trs with
  | [] => Ok []
  | tr :: trs' => do s <- at_ (tr_states tr) (hist c); do l <- current_tracks c trs';
                  Ok (if st_valid s then tr :: l else l)
  end.
(** ComputeOverlapRate (motion_metrics.cc:547-609). *)
Definition overlap_rate (g : geom) (c : mcfg) (ids : idmap) (s : scenario) (n : Z) (m : mmp) : result accum :=
  do trs <- current_tracks c (sc_tracks s);
  do confs <- resize (normalized_confidences m) (max_preds c);
  do j <- at_ m (Z.of_nat (max_element confs));
  do o <- overlap_trajs g c ids n trs (jt_trajs j);
  Ok (acc_add acc0 (if o : bool then 1 else 0)%Q).

(** GetSortedTrajectoryIndices (motion_metrics.cc:613-626), as the list of joint predictions. std::sort
    is modelled by insertion sort; C22 shows that the order of equal confidences does not matter. *)
Fixpoint insert_desc (j : joint) (l : list joint) : list joint :=
  match l with
  | [] => [j]
  | k :: l' => if Qlt_bool (jt_conf j) (jt_conf k) then k :: insert_desc j l' else j :: l
  end.
Definition sort_desc (l : list joint) : list joint := fold_right insert_desc [] l.
Definition considered (c : mcfg) (m : mmp) : list joint :=
  firstn (Z.to_nat (Z.min (Z.of_nat (length m)) (max_preds c))) m.

(** PredictionSample and PredictionStats (motion_metrics.h:64-81). *)
Notation sample := (Q * bool)%type.
Record pstats := { ps_samples : list sample; ps_num : Z }.
Definition ps0 : pstats := {| ps_samples := []; ps_num := 0 |}.
(** PredictionStats::Accumulate (motion_metrics.cc:891-895). *)
Definition ps_acc (a b : pstats) : pstats :=
  {| ps_samples := ps_samples a ++ ps_samples b; ps_num := ps_num a + ps_num b |}.

(** The loop over the sorted predictions (motion_metrics.cc:695-729): (samples, measurement_taken). *)
Fixpoint sample_loop (soft : bool) (l : list (joint * option bool)) (found : bool) : list sample * bool :=
  match l with
  | [] => ([], false)
  | (_, None) :: l' => sample_loop soft l' found
  | (j, Some b) :: l' =>
      let '(rest, _) := sample_loop soft l' (found || b) in
      if soft
      then ((if b && found then rest else (jt_conf j, b) :: rest), true)
      else ((jt_conf j, if found then false else b) :: rest, true)
  end.

(** TrajectoryType (motion_metrics_utils.h:33-43). *)
Definition STATIONARY := 0%Z. Definition STRAIGHT := 1%Z. Definition STRAIGHT_LEFT := 2%Z.
Definition STRAIGHT_RIGHT := 3%Z. Definition LEFT_U_TURN := 4%Z. Definition LEFT_TURN := 5%Z.
Definition RIGHT_U_TURN := 6%Z. Definition RIGHT_TURN := 7%Z. Definition NUM_TYPES := 8%nat.
(** GetTrajectoryTypePriority (motion_metrics.cc:52-64). *)
Definition traj_priority (t : Z) : Z :=
  if t =? STATIONARY then 0 else if t =? STRAIGHT then 1 else if t =? STRAIGHT_RIGHT then 2 else
  if t =? STRAIGHT_LEFT then 3 else if t =? RIGHT_TURN then 4 else if t =? LEFT_TURN then 5 else
  if t =? LEFT_U_TURN then 6 else 7.
(** ClassifyTrack (motion_metrics_utils.cc:30-96). *)
Fixpoint last_valid (l : list state) (cur : option state) : option state :=
  match l with [] => cur | s :: l' => last_valid l' (if st_valid s then Some s else cur) end.
Definition qmax2 (a b : Q) : Q := if Qlt_bool a b then b else a.
Definition classify_track (g : geom) (p : Z) (tr : track) : result (option Z) :=
  match last_valid (skipn (Z.to_nat (p + 1)) (tr_states tr)) None with
  | None => Ok None
  | Some e =>
      do s <- at_ (tr_states tr) p;
      if negb (st_valid s) then Ok None else
      let xd := (st_x e - st_x s)%Q in
      let yd := (st_y e - st_y s)%Q in
      let hd := g_norm g (st_heading e - st_heading s)%Q in
      let '(dx, dy) := g_rotate g (- st_heading s)%Q (xd, yd) in
      let speed := qmax2 (g_hypot g (st_vx s) (st_vy s)) (g_hypot g (st_vx e) (st_vy e)) in
      if Qlt_bool speed 2 && Qlt_bool (g_hypot g xd yd) 3 then Ok (Some STATIONARY) else
      if Qlt_bool (Qabs hd) (g_pi6 g) then
        if Qlt_bool (Qabs dy) (5 # 2) then Ok (Some STRAIGHT)
        else Ok (Some (if Qlt_bool dy 0 then STRAIGHT_RIGHT else STRAIGHT_LEFT)) else
      if Qlt_bool dy 0 then Ok (Some (if Qlt_bool dx 0 then RIGHT_U_TURN else RIGHT_TURN)) else
      Ok (Some (if Qlt_bool dx 0 then LEFT_U_TURN else LEFT_TURN))
  end.
(** The type of the prediction (motion_metrics.cc:652-686). *)
Definition prediction_type (g : geom) (c : mcfg) (ids : idmap) (ts : list traj) : result (option Z) :=
  do r <- foldM (fun (acc : Z * bool) t =>
       do tr <- get_track (tj_id t) ids;
       do ty <- classify_track g (hist c) tr;
       match ty with
       | None => Ok acc
       | Some ty => Ok (if traj_priority (fst acc) <? traj_priority ty then (ty, true) else (fst acc, true))
       end) ts (STATIONARY, false);
  let '(ty, found) := r in
  if negb found then Ok None else Ok (Some (if ty =? RIGHT_U_TURN then RIGHT_TURN else ty)).

(** ComputeMeanAveragePrecision for one prediction (motion_metrics.cc:630-738): the bucket vector. *)
Definition map_stats (g : geom) (c : mcfg) (ids : idmap) (sc : step_cfg) (soft : bool) (m : mmp) : result (list pstats) :=
  let empty := repeat ps0 NUM_TYPES in
  match m with
  | [] => Ok empty
  | j0 :: _ =>
      match jt_trajs j0 with
      | [] => Ok empty
      | ts =>
          do ty <- prediction_type g c ids ts;
          match ty with
          | None => Ok empty
          | Some ty =>
              do l <- mapM (fun j => do b <- is_match g c ids sc j; Ok (j, b)) (sort_desc (considered c m));
              let '(samples, taken) := sample_loop soft l false in
              let b := {| ps_samples := samples; ps_num := if taken then 1 else 0 |} in
              Ok (firstn (Z.to_nat ty) empty ++ b :: skipn (S (Z.to_nat ty)) empty)
          end
      end
  end.

(** MetricsStats (motion_metrics.h:96-158) without custom metrics. *)
Record mstats := { ms_ade : accum; ms_fde : accum; ms_miss : accum; ms_overlap : accum;
                   ms_map : list pstats; ms_soft : list pstats }.
Definition ms0 : mstats := {| ms_ade := acc0; ms_fde := acc0; ms_miss := acc0; ms_overlap := acc0; ms_map := []; ms_soft := [] |}.
(** MeanAveragePrecisionStats::Accumulate (motion_metrics.cc:897-909). *)
Definition map_acc (a b : list pstats) : result (list pstats) :=
  match b with
  | [] => Ok a
  | _ => let a' := match a with [] => repeat ps0 (length b) | _ => a end in
         if negb (Nat.eqb (length a') (length b)) then Err CheckFailed else
         Ok (map (fun p => ps_acc (fst p) (snd p)) (combine a' b))
  end.
(** MetricsStats::Accumulate (motion_metrics.cc:878-889). *)
Definition ms_acc (a b : mstats) : result mstats :=
  do m <- map_acc (ms_map a) (ms_map b);
  do s <- map_acc (ms_soft a) (ms_soft b);
  Ok {| ms_ade := acc_acc (ms_ade a) (ms_ade b); ms_fde := acc_acc (ms_fde a) (ms_fde b);
        ms_miss := acc_acc (ms_miss a) (ms_miss b); ms_overlap := acc_acc (ms_overlap a) (ms_overlap b);
        ms_map := m; ms_soft := s |}.

(** BucketedMetricsStats (motion_metrics.h:165-180): the nested std::map as one association list with
    keys (object type, step) in increasing order; [stats[type][step]] creates a default entry. *)
Definition key := (Z * Z)%type.
Definition key_cmp (a b : key) : comparison :=
  match Z.compare (fst a) (fst b) with Eq => Z.compare (snd a) (snd b) | r => r end.
Definition bstats := list (key * mstats).
Fixpoint upd (k : key) (f : mstats -> result mstats) (m : bstats) : result bstats :=
  match m with
  | [] => do v <- f ms0; Ok [(k, v)]
  | (k', v) :: m' =>
      match key_cmp k k' with
      | Lt => do w <- f ms0; Ok ((k, w) :: m)
      | Eq => do w <- f v; Ok ((k', w) :: m')
      | Gt => do m'' <- upd k f m'; Ok ((k', v) :: m'')
      end
  end.
(** BucketedMetricsStats::Accumulate (motion_metrics.cc:911-918). *)
Definition bs_acc (a b : bstats) : result bstats :=
  foldM (fun m p => upd (fst p) (fun v => ms_acc v (snd p)) m) b a.

(** GetObjectTypePriority (motion_metrics.cc:40-50); enum values of protos/scenario.proto:57-61. *)
Definition type_priority (t : Z) : option Z :=
  if t =? 0 then Some 0 else if t =? 4 then Some 1 else if t =? 1 then Some 2 else
  if t =? 2 then Some 3 else if t =? 3 then Some 4 else None.
Definition object_type (ids : idmap) (ts : list traj) : result Z :=
  foldM (fun ty t =>
    do tr <- get_track (tj_id t) ids;
    match type_priority (tr_type tr), type_priority ty with
    | Some a, Some b => Ok (if b <? a then tr_type tr else ty)
    | _, _ => Err ValueError
    end) ts 0.

(** The statistics of one prediction at one step (motion_metrics.cc:783-855). *)
Definition one_stats (g : geom) (c : mcfg) (ids : idmap) (s : scenario) (m : mmp) (sc : step_cfg) : result mstats :=
  do ade <- min_displacement g c ids (m_step sc) false m;
  do fde <- min_displacement g c ids (m_step sc) true m;
  do miss <- miss_rate g c ids sc m;
  do ov <- overlap_rate g c ids s (m_step sc) m;
  do mp <- map_stats g c ids sc false m;
  do sf <- map_stats g c ids sc true m;
  Ok {| ms_ade := ade; ms_fde := fde; ms_miss := miss; ms_overlap := ov; ms_map := mp; ms_soft := sf |}.
(** The loop over step configurations. The code updates the entry metric by metric and returns an
    error without a result when one fails; here the entry is updated at once. *)
Definition prediction_stats (g : geom) (c : mcfg) (ids : idmap) (s : scenario) (m : mmp) (r : bstats) : result bstats :=
  match m with
  | [] => Ok r
  | j0 :: _ =>
      do ty <- object_type ids (jt_trajs j0);
      foldM (fun r sc => do st <- one_stats g c ids s m sc; upd (ty, m_step sc) (fun v => ms_acc v st) r) (step_cfgs c) r
  end.
(** ComputeAllMetrics (motion_metrics.cc:742-874): an empty prediction ends the loop. *)
Definition is_empty_mmp (m : mmp) : bool :=
  match m with [] => true | j0 :: _ => match jt_trajs j0 with [] => true | _ => false end end.
Fixpoint all_metrics (g : geom) (c : mcfg) (ids : idmap) (s : scenario) (ms : list mmp) (r : bstats) : result bstats :=
  match ms with
  | [] => Ok r
  | m :: ms' => if is_empty_mmp m then Ok r else
                do r' <- prediction_stats g c ids s m r; all_metrics g c ids s ms' r'
  end.
(** ComputeMetricsStats (motion_metrics.cc:1010-1058). *)
Definition compute_stats (g : geom) (c : mcfg) (p : preds) (s : scenario) : result bstats :=
  do _ <- validate_config c;
  do _ <- validate_predictions c p s;
  do ids <- build_idmap s;
  do _ <- validate_tracks c ids;
  do _ <- validate_prediction_ids p ids;
  all_metrics g c ids s (pr_mms p) [].

(** SortSamples (motion_metrics.cc:933-945), by insertion. *)
Definition sample_lt (a b : sample) : bool :=
  if Qeq_bool (fst a) (fst b) then negb (snd a) && snd b else Qlt_bool (fst b) (fst a).
Fixpoint insert_sample (a : sample) (l : list sample) : list sample :=
  match l with [] => [a] | b :: l' => if sample_lt b a then b :: insert_sample a l' else a :: l end.
Definition sort_samples (l : list sample) : list sample := fold_right insert_sample [] l.
(** ComputePrCurve (motion_metrics.cc:947-967): (precision, recall). A zero total count (0/0 or an
    infinity in the code) is not excluded here; the theorems assume a positive count. *)
Fixpoint pr_curve (i tp : Z) (total : Z) (l : list sample) : list (Q * Q) :=
  match l with
  | [] => []
  | (_, b) :: l' =>
      let tp' := if b : bool then tp + 1 else tp in
      (inject_Z tp' / inject_Z (i + 1), inject_Z tp' / inject_Z total)%Q :: pr_curve (i + 1) tp' total l'
  end.
(** The loop from the last sample to the first (motion_metrics.cc:983-988). *)
Fixpoint area_loop (l : list (Q * Q)) (highest : Q * Q) (area : Q) : Q * (Q * Q) :=
  match l with
  | [] => (area, highest)
  | s :: l' => if Qlt_bool (fst highest) (fst s)
               then area_loop l' s (area + fst highest * (snd highest - snd s))%Q
               else area_loop l' highest area
  end.
(** ComputeMeanAveragePrecision(PredictionStats* ) (motion_metrics.cc:971-993). *)
Definition bucket_map (b : pstats) : Q :=
  match rev (pr_curve 0 0 (ps_num b) (sort_samples (ps_samples b))) with
  | [] => 0%Q
  | (last :: _) as l => let '(area, h) := area_loop l last 0%Q in (area + snd h * fst h)%Q
  end.
(** ComputeMapMetric (motion_metrics.cc:995-1008). *)
Definition map_metric (l : list pstats) : Q :=
  let used := filter (fun b => match ps_samples b with [] => false | _ => true end) l in
  if Nat.eqb (length used) 0 then 0%Q else (qsum (map bucket_map used) / inject_Z (Z.of_nat (length used)))%Q.

(** MotionMetricsBundle and ComputeBundle (motion_metrics.cc:1064-1082). *)
Record bundle := { b_type : Z; b_step : Z; b_ade : Q; b_fde : Q; b_miss : Q; b_overlap : Q; b_map : Q; b_soft : Q }.
Definition to_bundle (p : key * mstats) : bundle :=
  {| b_type := fst (fst p); b_step := snd (fst p); b_ade := acc_mean (ms_ade (snd p)); b_fde := acc_mean (ms_fde (snd p));
     b_miss := acc_mean (ms_miss (snd p)); b_overlap := acc_mean (ms_overlap (snd p));
     b_map := map_metric (ms_map (snd p)); b_soft := map_metric (ms_soft (snd p)) |}.
(** ComputeMotionMetrics (motion_metrics.cc:1131-1159). The maps keyed by scenario id are given as a
    list of (predictions, scenario if found) in iteration order. *)
Definition total_stats (g : geom) (c : mcfg) (l : list (preds * option scenario)) : result bstats :=
  foldM (fun tot ps => match snd ps with
                       | None => Err ValueError
                       | Some s => do st <- compute_stats g c (fst ps) s; bs_acc tot st
                       end) l [].
Definition motion_metrics (g : geom) (c : mcfg) (l : list (preds * option scenario)) : result (list bundle) :=
  do tot <- total_stats g c l; Ok (map to_bundle tot).
