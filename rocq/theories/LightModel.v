(** Driving over red lights:
    /repo/src/waymo_open_dataset/wdl_limited/sim_agents_metrics/traffic_light_features.py.

    Numbers are exact fractions.  Distances are compared by their squares, so that the square root of
    tf.linalg.norm is not needed.  Heights, which the file does not use, are left out. *)
From Coq Require Import QArith Bool.
From Verif Require Import Base ResultLib.
From Verif Require GeomModel.
Open Scope list_scope.
Open Scope Q_scope.

Definition pt := (Q * Q)%type.
Definition sub (a b : pt) : pt := (fst a - fst b, snd a - snd b).
(** geometry_utils.dot_product_2d. *)
Definition dot (a b : pt) : Q := fst a * fst b + snd a * snd b.
(** map.proto 37-75 TrafficSignalLaneState; an unset stop point reads as zeros. *)
Record signal := { s_lane : Z; s_state : Z; s_stop : pt }.
Definition LANE_STATE_ARROW_STOP : Z := 1.
Definition LANE_STATE_STOP : Z := 4.

(** tf.math.divide_no_nan and tf.clip_by_value. *)
Definition divide_no_nan (a b : Q) : Q := if Qeq_bool b 0 then 0 else a / b.
Definition clip01 (x : Q) : Q := if Qle_bool x 0 then 0 else if Qle_bool 1 x then 1 else x.
(** EXTREMELY_LARGE_DISTANCE squared. *)
Definition LARGE2 : Q := 10000000000 * 10000000000.

(** map_metric_features.tensorize_polylines 129-180: polylines of less than two points are dropped, the others
    padded by invalid zeros; tf.stack fails on an empty list. *)
Definition vpt := (pt * bool)%type.
Definition kept (lanes : list (list pt)) (ids : list Z) : list (list pt * Z) :=
  filter (fun p => Nat.leb 2 (length (fst p))) (combine lanes ids).
Definition max_length (l : list (list pt * Z)) : nat := fold_left (fun m p => Nat.max m (length (fst p))) l 0%nat.
Definition pad (n : nat) (l : list pt) : list vpt :=
  map (fun p => (p, true)) l ++ repeat ((0, 0), false) (n - length l).
Definition tensorize (lanes : list (list pt)) (ids : list Z) : result (list (Z * list vpt)) :=
  match kept lanes ids with
  | [] => Err ValueError
  | l => Ok (map (fun p => (snd p, pad (max_length l) (fst p))) l)
  end.

(** _get_nearest_lane_segment_index 277-291, one segment.  The code adds [start_to_end * clipped_rel_t] to
    [start_to_point]. *)
Definition measure (xy : pt) (s : vpt * vpt) : Q :=
  let start_to_point := sub xy (fst (fst s)) in
  let start_to_end := sub (fst (snd s)) (fst (fst s)) in
  let t := clip01 (divide_no_nan (dot start_to_point start_to_end) (dot start_to_end start_to_end)) in
  let v := (fst start_to_point + fst start_to_end * t, snd start_to_point + snd start_to_end * t) in
  if snd (fst s) then dot v v else LARGE2.
Definition segments (row : list vpt) : list (vpt * vpt) := combine row (tl row).
(** tf.argmin: the index of the first minimum; it fails on no elements. *)
Fixpoint argmin_from (i best : nat) (m : Q) (l : list Q) : nat :=
  match l with
  | [] => best
  | x :: l' => if Qle_bool m x then argmin_from (S i) best m l' else argmin_from (S i) i x l'
  end.
Definition argmin (l : list Q) : result nat :=
  match l with [] => Err RuntimeError | x :: l' => Ok (argmin_from 1 0 x l') end.
(** 277-325 _get_nearest_lane_segment_index with _argmin_2d. *)
Definition nearest_lane_segment_index (xy : pt) (rows : list (list vpt)) : result (nat * nat) :=
  do flat <- argmin (concat (map (fun row => map (measure xy) (segments row)) rows));
  let num_cols := match rows with [] => 0%nat | row :: _ => length (segments row) end in
  Ok (Nat.div flat num_cols, Nat.modulo flat num_cols).

(** _tensorize_traffic_signals 328-367: the last state of a step for a lane; state 0 and the point (0, 0) if
    there is none.  [order] lists the elements of a set. *)
Definition all_lane_ids (order : list Z -> list Z) (signals : list (list signal)) : list Z :=
  match order (map s_lane (concat signals)) with [] => [(-1)%Z] | l => l end.
Definition signal_at (lane : Z) (signals_at_t : list signal) : Z * pt :=
  fold_left (fun acc s => if Z.eqb (s_lane s) lane then (s_state s, s_stop s) else acc) signals_at_t (0%Z, (0, 0)).

(** tf.gather. *)
Definition gather {A} (l : list A) (i : nat) : result A :=
  match nth_error l i with Some x => Ok x | None => Err IndexError end.
(** 135-168: the row of the first lane with the id, the first row if there is none, and the segment of it that
    is nearest to the stop point. *)
Fixpoint find_lane (lane : Z) (rows : list (Z * list vpt)) : option (list vpt) :=
  match rows with
  | [] => None
  | r :: rows' => if Z.eqb (fst r) lane then Some (snd r) else find_lane lane rows'
  end.
Definition stop_segment (rows : list (Z * list vpt)) (lane : Z) (stop : pt) : result (pt * pt) :=
  do row <- match find_lane lane rows with Some row => Ok row | None => do r <- gather rows 0; Ok (snd r) end;
  do i <- nearest_lane_segment_index stop [row];
  do a <- gather row (snd i);
  do b <- gather row (S (snd i));
  Ok (fst a, fst b).
(** 173-215: the projections of the object and of the stop point on that segment. *)
Definition rel_t (seg : pt * pt) (p : pt) : Q :=
  let start_to_end := sub (snd seg) (fst seg) in
  divide_no_nan (dot (sub p (fst seg)) start_to_end) (dot start_to_end start_to_end).
Definition less (a b : Q) : bool := negb (Qle_bool b a).
Definition behind (rows : list (Z * list vpt)) (lane : Z) (signals_at_t : list signal) (xy : pt) : result bool :=
  let stop := snd (signal_at lane signals_at_t) in
  do seg <- stop_segment rows lane stop;
  Ok (less (rel_t seg xy) (rel_t seg stop)).
Definition ahead (rows : list (Z * list vpt)) (lane : Z) (signals_at_t : list signal) (xy : pt) : result bool :=
  let stop := snd (signal_at lane signals_at_t) in
  do seg <- stop_segment rows lane stop;
  Ok (less (rel_t seg stop) (rel_t seg xy)).
Definition is_stop (s : Z * pt) : bool := Z.eqb (fst s) LANE_STATE_ARROW_STOP || Z.eqb (fst s) LANE_STATE_STOP.

(** 96-110, 117-119, 216-242: one object, one step and one signal lane. *)
Definition violates (rows : list (Z * list vpt)) (signals : list (list signal)) (row : list vpt) (t : nat) (lane : Z) : result bool :=
  do now <- gather row t;
  do n <- nearest_lane_segment_index (fst now) (map snd rows);
  do current <- gather rows (fst n);
  do here <- gather signals t;
  do crossed <- match t with
                | O => Ok false
                | S u => do before <- gather row u;
                         do there <- gather signals u;
                         do b <- behind rows lane there (fst before);
                         do a <- ahead rows lane here (fst now);
                         Ok (b && a)
                end;
  Ok (snd now && Z.eqb (fst current) lane && is_stop (signal_at lane here) &&
      match find_lane lane rows with Some _ => true | None => false end && crossed).
Definition violation_at (order : list Z -> list Z) (rows : list (Z * list vpt)) (signals : list (list signal)) (row : list vpt) (t : nat) : result bool :=
  do l <- mapM (violates rows signals row t) (all_lane_ids order signals);
  Ok (existsb (fun b => b) l).
(** compute_red_light_violation 23-242.  tf.reshape with -1 fails without evaluated objects, comparing with the
    signals of another number of steps fails; with one step the concatenation of 219-226 has no columns. *)
Definition compute_red_light_violation (order : list Z -> list Z) (num_steps : nat) (objects : list (list vpt)) (mask : list bool)
    (lanes : list (list pt)) (ids : list Z) (signals : list (list signal)) : result (list (list bool)) :=
  match lanes, signals with
  | [], _ => Err ValueError
  | _, [] => Err ValueError
  | _, _ =>
    if negb (Nat.eqb (length lanes) (length ids)) then Err ValueError else
    do rows <- tensorize lanes ids;
    match GeomModel.select mask objects with
    | [] => Err RuntimeError
    | evaluated =>
      if negb (Nat.eqb (length signals) num_steps) then Err RuntimeError else
      if Nat.eqb num_steps 1 then Ok (map (fun _ => []) evaluated) else
      mapM (fun row => mapM (violation_at order rows signals row) (seq 0 num_steps)) evaluated
    end
  end.
