(** Time to collision with the object in front:
    /repo/src/waymo_open_dataset/wdl_limited/sim_agents_metrics/interaction_features.py 239-447.

    Numbers are real numbers; NaN, which only speeds can be, is [None]. *)
From Coq Require Import Reals.
From Verif Require Import Base ResultLib KinematicModel GeomModel.
Open Scope list_scope.
Open Scope R_scope.

(** interaction_features.py 34-43. *)
Definition MAX_HEADING_DIFF : R := 75 * PI / 180.
Definition MAX_HEADING_DIFF_FOR_SMALL_OVERLAP : R := 10 * PI / 180.
Definition SMALL_OVERLAP_THRESHOLD : R := 1 / 2.
Definition MAXIMUM_TIME_TO_COLLISION : R := 5.

(** trajectory_features.py 87-125 with z = 0: the speeds of an object, NaN at the first and last step. *)
Definition speeds (seconds_per_step : R) (row : list cell) : list (option R) :=
  central (fun b a : cell =>
             Some (norm ((bx (fst b) - bx (fst a)) / 2, (by_ (fst b) - by_ (fst a)) / 2) / seconds_per_step))
          None row.

(** 314-337: offsets from the centre of the other box to its corners. *)
Definition yaw_diff (e o : obox) : R := Rabs (bheading o - bheading e).
Definition long_offset (e o : obox) : R :=
  blength o / 2 * Rabs (cos (yaw_diff e o)) + bwidth o / 2 * Rabs (sin (yaw_diff e o)).
Definition lat_offset (e o : obox) : R :=
  blength o / 2 * Rabs (sin (yaw_diff e o)) + bwidth o / 2 * Rabs (cos (yaw_diff e o)).
(** geometry_utils.py rotate_2d_points. *)
Definition rotate_2d (yaw : R) (p : point) : point :=
  (cos yaw * fst p - sin yaw * snd p, sin yaw * fst p + cos yaw * snd p).
(** 342-345. *)
Definition relative_xy (e o : obox) : point :=
  rotate_2d (- bheading e) (psub (bx o, by_ o) (bx e, by_ e)).
(** 350-362. *)
Definition long_distance (e o : obox) : R := fst (relative_xy e o) - blength e / 2 - long_offset e o.
Definition lat_overlap (e o : obox) : R := Rabs (snd (relative_xy e o)) - bwidth e / 2 - lat_offset e o.
(** _get_object_following_mask 403-447. *)
Definition following_mask (long lat yaw : R) : bool :=
  rltb 0 long && rleb yaw MAX_HEADING_DIFF && rltb lat 0 &&
  (rltb lat (- SMALL_OVERLAP_THRESHOLD) || rleb yaw MAX_HEADING_DIFF_FOR_SMALL_OVERLAP).
Definition is_followed (e : obox) (o : cell) : bool :=
  snd o && following_mask (long_distance e (fst o)) (lat_overlap e (fst o)) (yaw_diff e (fst o)).
(** 373-378. *)
Definition masked_long_distance (e : obox) (o : cell) : R :=
  long_distance e (fst o) + (1 - (if is_followed e o then 1 else 0)) * EXTREMELY_LARGE_DISTANCE.
(** 381-398: the first minimum with its speed. *)
Definition ahead (l : list (R * option R)) : result (R * option R) :=
  match l with
  | [] => Err CheckFailed
  | a :: l' => Ok (fold_left (fun best x => if rltb (fst x) (fst best) then x else best) l' a)
  end.
(** 400-406; a comparison with NaN is false. *)
Definition time_to_collision (distance : R) (ego_speed box_ahead_speed : option R) : R :=
  match ego_speed, box_ahead_speed with
  | Some v, Some w =>
      if rltb 0 (v - w) then Rmin (distance / (v - w)) MAXIMUM_TIME_TO_COLLISION else MAXIMUM_TIME_TO_COLLISION
  | _, _ => MAXIMUM_TIME_TO_COLLISION
  end.
Definition ttc_at (seconds_per_step : R) (objects : list (list cell)) (row : list cell) (t : nat) : result R :=
  do e <- step_of t row;
  do v <- step_of t (speeds seconds_per_step row);
  do others <- mapM (fun r => do o <- step_of t r;
                              do w <- step_of t (speeds seconds_per_step r);
                              Ok (masked_long_distance (fst e) o, w)) objects;
  do a <- ahead others;
  Ok (time_to_collision (fst a) v (snd a)).
(** The whole.  Stacking the speeds with the boxes fails below two steps; a mask of another length than the
    objects is outside the model. *)
Definition compute_time_to_collision (seconds_per_step : R) (num_steps : nat) (objects : list (list cell))
    (mask : list bool) : result (list (list R)) :=
  if negb (Nat.eqb (List.length mask) (List.length objects)) then Err RuntimeError else
  if Nat.ltb num_steps 2 then Err ValueError else
  mapM (fun row => mapM (ttc_at seconds_per_step objects row) (seq 0 num_steps)) (select mask objects).
