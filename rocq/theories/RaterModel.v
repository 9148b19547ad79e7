(** Rater feedback score, src/waymo_open_dataset/metrics/python/rater_feedback_utils.py.

    Conventions.
    - Numbers are rationals.  np.linalg.norm of a pair and the power function
      are parameters; the theorems state the few laws they use.
    - The arrays of the inference (B x I x T) are nested lists with the documented
      shapes; T, being shape[-2], is also given.  Broadcasting over different
      batch sizes is not modelled.  Sizes are natural numbers.
    - Thresholds are assumed nonzero (division by zero gives 0 here, inf or nan
      there). *)
From Coq Require Import Qminmax Qabs.
From Verif Require Import Base ResultLib.
Open Scope list_scope.
Open Scope Q_scope.

Notation waypoint := (Q * Q)%type.
Notation trajectory := (list (Q * Q)%type).

(** ** process_rater_specified_trajectories 46-164 *)

(** The truncation or padding of 98-121 (trajectories, labels) and 127-145
    (waypoints): a[-1] of an empty array is an IndexError. *)
Definition fit {A} (n : nat) (l : list A) : result (list A) :=
  if (n <? length l)%nat then Ok (firstn n l)
  else if (length l <? n)%nat then
    match rev l with
    | [] => Err IndexError
    | a :: _ => Ok (l ++ repeat a (n - length l))
    end
  else Ok l.

(** The body of the loop, 87-157. *)
Definition process_batch (steps count : nat) (b : list trajectory * list Q)
  : result (list trajectory * list Q) :=
  let '(ts, labels) := b in
  if negb (Nat.eqb (length ts) (length labels)) then Err ValueError else
  do ts' <- fit count ts;
  do labels' <- fit count labels;
  do final <- mapM (fit steps) ts';
  Ok (final, labels').
Definition process (trajectories : list (list trajectory)) (labels : list (list Q)) (steps count : nat)
  : result (list (list trajectory * list Q)) :=
  if negb (Nat.eqb (length trajectories) (length labels)) then Err ValueError else
  mapM (process_batch steps count) (combine trajectories labels).

(** ** get_rater_feedback_score 167-427 *)

Record numerics := { norm : waypoint -> Q; power : Q -> Q -> Q }.
Record config := {
  lat_multiplier : Q; lng_multiplier : Q; decay_factor : Q; frequency : nat; length_seconds : nat;
  default_count : nat; minimum_outside : Q
}.

(** np.clip. *)
Definition clip (x lo hi : Q) : Q := Qmin (Qmax x lo) hi.
(** get_lat_lng_thresholds 26-43: the scale, and the thresholds at the two times. *)
Definition speed_scale (v : Q) : Q := clip ((1 # 2) + (1 # 2) * (v - (14 # 10)) / (11 - (14 # 10))) (1 # 2) 1.
Definition base_thresholds : Q * Q := (1, 18 # 10).
Definition thresholds (multiplier v : Q) : Q * Q :=
  (speed_scale v * (fst base_thresholds * multiplier), speed_scale v * (snd base_thresholds * multiplier)).

Definition is_zero (q : Q) : bool := Qeq_bool q 0.
(** 243-289: the displacement from the previous waypoint (the origin at first),
    and where its norm is zero the direction before, (1, 0) at first. *)
Fixpoint directions (nu : numerics) (from dir : waypoint) (t : trajectory) : list waypoint :=
  match t with
  | [] => []
  | w :: t' =>
      let d := (fst w - fst from, snd w - snd from) in
      let dir' := if is_zero (norm nu d) then dir else d in
      dir' :: directions nu w dir' t'
  end.
(** 291-318 at one waypoint: absolute projections on the normalized direction
    and on its normalized left normal. *)
Definition lng_distance (nu : numerics) (d v : waypoint) : Q :=
  let n := norm nu d in Qabs (fst d / n * fst v + snd d / n * snd v).
Definition lat_distance (nu : numerics) (d v : waypoint) : Q :=
  let l := (snd d * -1, fst d) in
  let n := norm nu l in Qabs (fst l / n * fst v + snd l / n * snd v).
(** 321-323 and 363-373: the larger normalized distance at an index. *)
Definition normalized_distance (nu : numerics) (rater : trajectory) (inference : trajectory)
    (idx : nat) (lat_threshold lng_threshold : Q) : result Q :=
  match nth_error rater idx, nth_error inference idx, nth_error (directions nu (0, 0) (1, 0) rater) idx with
  | Some r, Some x, Some d =>
      let v := (fst x - fst r, snd x - snd r) in
      Ok (Qmax (lng_distance nu d v / lng_threshold) (lat_distance nu d v / lat_threshold))
  | _, _, _ => Err IndexError
  end.
(** The distances at 3 and 5 seconds. *)
Definition distances (nu : numerics) (cfg : config) (speed : Q) (rater inference : trajectory)
  : result (Q * Q) :=
  let lat := thresholds (lat_multiplier cfg) speed in
  let lng := thresholds (lng_multiplier cfg) speed in
  do a <- normalized_distance nu rater inference (3 * frequency cfg - 1) (fst lat) (fst lng);
  do b <- normalized_distance nu rater inference (5 * frequency cfg - 1) (snd lat) (snd lng);
  Ok (a, b).

(** np.amax: ValueError on an empty axis. *)
Definition amax (l : list Q) : result Q :=
  match l with [] => Err ValueError | a :: l' => Ok (fold_left Qmax l' a) end.

(** 375-413 for one inference trajectory: within some trust region, and score. *)
Definition decay (nu : numerics) (cfg : config) (d : Q) : Q :=
  power nu (decay_factor cfg) (Qmax (d - 1) 0).
Definition inference_score (nu : numerics) (cfg : config) (speed : Q)
    (raters : list (trajectory * Q)) (inference : trajectory) : result (bool * Q) :=
  do ds <- mapM (fun r => do d <- distances nu cfg speed (fst r) inference; Ok (d, snd r)) raters;
  let within := existsb (fun e => Qle_bool (fst (fst e)) 1 && Qle_bool (snd (fst e)) 1) ds in
  do s3 <- amax (map (fun e => snd e * decay nu cfg (fst (fst e))) ds);
  do s5 <- amax (map (fun e => snd e * decay nu cfg (snd (fst e))) ds);
  let mean := (s3 + s5) / 2 in
  Ok (within, if within then mean else Qmax (minimum_outside cfg) mean).

(** 375-418 for one batch element: the flags and the weighted sum. *)
Definition weighted_sum (scores probs : list Q) : Q :=
  fold_left Qplus (map (fun sp => fst sp * snd sp) (combine scores probs)) 0.
Definition element_score (nu : numerics) (cfg : config) (raters : list (trajectory * Q))
    (inferences : list trajectory) (probs : list Q) (speed : Q) : result (list bool * Q) :=
  do rs <- mapM (inference_score nu cfg speed raters) inferences;
  Ok (map fst rs, weighted_sum (map snd rs) probs).

(** One batch element of the inputs: rated trajectories, labels, inference
    trajectories, probabilities, initial speed. *)
Record element := {
  e_raters : list trajectory; e_labels : list Q; e_inferences : list trajectory;
  e_probs : list Q; e_speed : Q
}.

(** The whole function.  Without batch elements the processed array has no
    second dimension (IndexError); without rated trajectories np.pad or an
    earlier check raises ValueError. *)
Definition rater_feedback_score (nu : numerics) (cfg : config) (steps : nat) (batch : list element)
  : result (list (list bool * Q)) :=
  do processed <- process (map e_raters batch) (map e_labels batch)
                    (length_seconds cfg * frequency cfg) (default_count cfg);
  match processed with
  | [] => Err IndexError
  | _ =>
    if Nat.eqb (default_count cfg) 0 then Err ValueError else
    if negb (Nat.eqb steps (length_seconds cfg * frequency cfg)) then Err ValueError else
    if (steps <? 5 * frequency cfg)%nat then Err ValueError else
    if Nat.eqb steps 0 then Err IndexError else
    mapM (fun x => let '((ts, ls), e) := x in
            element_score nu cfg (combine ts ls) (e_inferences e) (e_probs e) (e_speed e))
         (combine processed batch)
  end.
