(** The tutorial of the end-to-end driving challenge: the front cameras, the files that are submitted, the ADE and the frame
    whose rater feedback is computed: /repo/tutorial/tutorial_vision_based_e2e_driving.ipynb (lines of the notebook file).
    Numbers are real numbers instead of floats; images, calibrations and predictions are arbitrary data. Decoding and drawing of
    images, and the metadata of a submission, are not modelled. *)
From Coq Require Import Reals.
From Verif Require Import Base ResultLib.
Open Scope list_scope.

(** 156-173: the first image of a camera with its index. *)
Fixpoint first_named {I} (camera : Z) (index : nat) (images : list (Z * I)) : option (nat * I) :=
  match images with
  | [] => None
  | (name, image) :: images' => if (name =? camera)%Z then Some (index, image) else first_named camera (S index) images'
  end.
(** 156-173: return_front3_cameras. Calibrations are given with the name of their camera, which is not read. *)
Definition return_front3_cameras {I C} (images : list (Z * I)) (calibrations : list (Z * C)) : result (list I * list (Z * C)) :=
  foldM (fun acc camera =>
    match first_named camera 0 images with
    | None => Ok acc
    | Some (index, image) =>
        match nth_error calibrations index with
        | None => Err IndexError
        | Some calibration => Ok (fst acc ++ [image], snd acc ++ [calibration])
        end
    end) [2; 1; 3]%Z ([], []).

(** Python slices with bounds that are not negative. *)
Definition slice {A} (l : list A) (start stop : nat) : list A := firstn (stop - start) (skipn start l).
(** 384-390: math.ceil of a quotient; the float quotient is taken to be exact, division by zero is an error value. *)
Definition ceil_div (a b : nat) : result nat := if (b =? 0)%nat then Err RuntimeError else Ok ((a + b - 1) / b)%nat.
(** 384-390: the predictions of each file. *)
Definition shards {A} (predictions : list A) (num_shards : nat) : result (list (list A)) :=
  do per <- ceil_div (length predictions) num_shards;
  Ok (map (fun i => slice predictions (i * per) ((i + 1) * per)) (seq 0 num_shards)).

Open Scope R_scope.
(** The last axis: x and y. *)
Definition waypoint : Type := R * R.
(** np.linalg.norm of a difference. *)
Definition distance (p q : waypoint) : R := sqrt ((fst p - fst q) * (fst p - fst q) + (snd p - snd q) * (snd p - snd q)).
(** numpy broadcasting of the axis of the time steps. *)
Definition broadcast {A B C} (f : A -> B -> C) (a : list A) (b : list B) : result (list C) :=
  if (length a =? length b)%nat then Ok (map (fun p => f (fst p) (snd p)) (combine a b)) else
  match a, b with
  | [x], _ => Ok (map (f x) b)
  | _, [y] => Ok (map (fun x => f x y) a)
  | _, _ => Err ValueError
  end.
Definition sum (l : list R) : R := fold_right Rplus 0 l.
Definition number (b : bool) : R := if b then 1 else 0.
(** 460-482: average_distance_per_step for one of the proposals. *)
Definition average_distance (prediction observed : list waypoint) (mask : list bool) : result R :=
  do dist_per_step <- broadcast distance prediction observed;
  do masked <- broadcast (fun d b => d * number b) dist_per_step mask;
  let valid_steps := Rmax (sum (map number mask)) 1 in
  Ok (sum masked / valid_steps).
Definition average_distance_per_step (predictions : list (list waypoint)) (observed : list waypoint) (mask : list bool) : result (list R) :=
  mapM (fun p => average_distance p observed mask) predictions.

(** 505-508: Python dictionaries, with the newest entry of a name in front. The ground truth has one entry per name. *)
Definition set_entry {A} (d : list (Z * A)) (name : Z) (a : A) : list (Z * A) := (name, a) :: d.
Definition entry {A} (d : list (Z * A)) (name : Z) : option A :=
  match find (fun p => (fst p =? name)%Z) d with Some p => Some (snd p) | None => None end.
(** 504-508: prediction_dict. *)
Definition prediction_dict (submissions : list (list (Z * list waypoint))) : list (Z * list waypoint) :=
  fold_left (fun d submission => fold_left (fun d p => set_entry d (fst p) (snd p)) submission d) submissions [].
(** 520-527: the ADE of each frame of the ground truth. The mask has the length of the ground truth. *)
Definition ade_list (gt : list (Z * list waypoint)) (submissions : list (list (Z * list waypoint))) : result (list R) :=
  mapM (fun g =>
    match entry (prediction_dict submissions) (fst g) with
    | None => Err ValueError
    | Some p => average_distance p (snd g) (repeat true (length (snd g)))
    end) gt.
(** 538: np.mean; [None] is NaN. *)
Definition mean_ade (l : list R) : option R := match l with [] => None | _ => Some (sum l / INR (length l)) end.

(** A frame: the scores of its rated trajectories and its past velocities. *)
Record frame := Frame { preference_scores : list R; past_velocity : list (R * R) }.
Definition rated (f : frame) : bool :=
  match preference_scores f with [] => false | s :: _ => negb (if Req_EM_T s (-1) then true else false) end.
(** 552-559: the loop over the frames that are left; the frame read last (if there is one) and the one with ratings. *)
Fixpoint find_label (data : frame) (frames : list frame) : frame * option frame :=
  match frames with
  | [] => (data, None)
  | f :: frames' => if rated f then (f, Some f) else find_label f frames'
  end.
(** 611-613: the speeds; [data] is the frame read last, whatever the entry of the list. *)
Definition last_speed (f : frame) : result R :=
  match rev (past_velocity f) with [] => Err IndexError | v :: _ => Ok (sqrt (fst v * fst v + snd v * snd v)) end.
Definition initial_speeds (data : frame) (data_list : list frame) : result (list R) := mapM (fun _ => last_speed data) data_list.
