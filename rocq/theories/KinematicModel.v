(** Model of the kinematic features of the sim agents metrics:
    /repo/src/waymo_open_dataset/wdl_limited/sim_agents_metrics/trajectory_features.py.

    Simplifications that apply to the whole file:
    - tensors of shape (..., steps) are treated one row at a time, the leading
      axes being independent; a row is a list;
    - numbers are exact rationals and NaN is [None]; an operation with a NaN
      operand gives NaN;
    - [pi] stands for np.pi and [norm] for the Euclidean norm of tf.linalg.norm,
      both parameters. *)
From Coq Require Import QArith Qround.
From Verif Require Import Base.
Open Scope Q_scope.

(** NaN-propagating lifts. *)
Definition lift1 (f : Q -> Q) (a : option Q) : option Q :=
  match a with Some x => Some (f x) | None => None end.
Definition lift2 (f : Q -> Q -> Q) (a b : option Q) : option Q :=
  match a, b with Some x, Some y => Some (f x y) | _, _ => None end.
Definition lift3 (f : Q -> Q -> Q -> Q) (a b c : option Q) : option Q :=
  match a, b, c with Some x, Some y, Some z => Some (f x y z) | _, _, _ => None end.

(** The slices t[..., 2:] and t[..., :-2], combined with [f] and padded on both
    sides (trajectory_features.py 32-36 and 56-60). *)
Definition central {A B} (f : A -> A -> B) (pad_value : B) (t : list A) : list B :=
  let diff_t := map (fun p => f (fst p) (snd p))
                    (combine (skipn 2 t) (firstn (length t - 2) t)) in
  [pad_value] ++ diff_t ++ [pad_value].

(** trajectory_features.py 13-36 central_diff. *)
Definition central_diff (t : list (option Q)) (pad_value : option Q) : list (option Q) :=
  central (lift2 (fun a b => (a - b) / 2)) pad_value t.

(** trajectory_features.py 39-60 central_logical_and. *)
Definition central_logical_and (t : list bool) (pad_value : bool) : list bool :=
  central andb pad_value t.

(** Python % on floats: the remainder has the sign of the divisor. *)
Definition float_mod (x y : Q) : Q := x - y * inject_Z (Qfloor (x / y)).

(** trajectory_features.py 170-172 _wrap_angle. *)
Definition wrap_angle (pi angle : Q) : Q := float_mod (angle + pi) (2 * pi) - pi.

Definition map3 {A B C D} (f : A -> B -> C -> D) (a : list A) (b : list B) (c : list C) : list D :=
  map (fun p => f (fst (fst p)) (snd (fst p)) (snd p)) (combine (combine a b) c).

Record features := {
  linear_speed : list (option Q); linear_accel : list (option Q);
  angular_speed : list (option Q); angular_accel : list (option Q) }.

(** trajectory_features.py 87-142 compute_kinematic_features.  tf.stack raises
    when the coordinates do not have the same number of steps. *)
Definition compute_kinematic_features (pi : Q) (norm : Q -> Q -> Q -> Q)
    (x y z heading : list (option Q)) (seconds_per_step : Q) : result features :=
  if negb (Nat.eqb (length x) (length y) && Nat.eqb (length x) (length z))%bool
  then Err ValueError
  else
    let dx := central_diff x None in
    let dy := central_diff y None in
    let dz := central_diff z None in
    let linear_speed := map (lift1 (fun s => s / seconds_per_step)) (map3 (lift3 norm) dx dy dz) in
    let linear_accel := map (lift1 (fun s => s / seconds_per_step)) (central_diff linear_speed None) in
    let dh_step := map (lift1 (fun d => wrap_angle pi (d * 2) / 2)) (central_diff heading None) in
    let dh := map (lift1 (fun d => d / seconds_per_step)) dh_step in
    let d2h_step := map (lift1 (fun d => wrap_angle pi (d * 2) / 2)) (central_diff dh_step None) in
    let d2h := map (lift1 (fun d => d / (seconds_per_step * seconds_per_step))) d2h_step in
    Ok {| linear_speed := linear_speed; linear_accel := linear_accel;
          angular_speed := dh; angular_accel := d2h |}.

(** trajectory_features.py 145-167 compute_kinematic_validity. *)
Definition compute_kinematic_validity (valid : list bool) : list bool * list bool :=
  let speed_validity := central_logical_and valid false in
  let acceleration_validity := central_logical_and speed_validity false in
  (speed_validity, acceleration_validity).

(** trajectory_features.py 63-84 compute_displacement_error, for one step. *)
Definition displacement_error (norm : Q -> Q -> Q -> Q) (x y z ref_x ref_y ref_z : Q) : Q :=
  norm (x - ref_x) (y - ref_y) (z - ref_z).
