(** C32: kinematic features and their validity. *)
From Coq Require Import QArith.
From Verif Require Import Base KinematicModel KinematicSpec KinematicProofs.
Open Scope Q_scope.

(** Speed is valid exactly between two valid neighbours; acceleration exactly
    where the step and the ones two before and two after are valid. *)
Theorem C32_validity_exact : forall valid speed accel,
  compute_kinematic_validity valid = (speed, accel) ->
  (forall i, true_at speed i <-> (1 <= i)%nat /\ true_at valid (i - 1) /\ true_at valid (i + 1)) /\
  (forall i, true_at accel i <->
     (2 <= i)%nat /\ true_at valid (i - 2) /\ true_at valid i /\ true_at valid (i + 2)).
Proof. exact validity_exact. Qed.
Print Assumptions C32_validity_exact.

(** Masks and features have as many steps as the input from two steps on. *)
Theorem C32_validity_lengths : forall valid speed accel,
  compute_kinematic_validity valid = (speed, accel) ->
  length speed = Nat.max 2 (length valid) /\ length accel = Nat.max 2 (length valid).
Proof. exact validity_lengths. Qed.
Print Assumptions C32_validity_lengths.

Theorem C32_feature_lengths : forall pi norm x y z h dt ft,
  compute_kinematic_features pi norm x y z h dt = Ok ft ->
  length (linear_speed ft) = Nat.max 2 (length x) /\
  length (linear_accel ft) = Nat.max 2 (length x) /\
  length (angular_speed ft) = Nat.max 2 (length h) /\
  length (angular_accel ft) = Nat.max 2 (length h).
Proof. exact feature_lengths. Qed.
Print Assumptions C32_feature_lengths.

(** A trajectory of a single step gets two steps of features. *)
Theorem C32_length_kept_refuted : exists valid speed accel,
  compute_kinematic_validity valid = (speed, accel) /\ length speed <> length valid.
Proof.
  exact (ex_intro _ [true] (ex_intro _ [false; false] (ex_intro _ [false; false]
    (conj eq_refl (fun H : 2%nat = 1%nat => match H in _ = n return match n with 1%nat => False | _ => True end
                                            with eq_refl => I end))))).
Qed.
Print Assumptions C32_length_kept_refuted.

(** The features exist exactly when the coordinates have equal lengths. *)
Theorem C32_features_total : forall pi norm x y z h dt,
  (exists ft, compute_kinematic_features pi norm x y z h dt = Ok ft) <->
  length x = length y /\ length x = length z.
Proof. exact features_total. Qed.
Print Assumptions C32_features_total.

(** Linear speed is the norm of half the displacement between the neighbouring
    steps, over the step duration; acceleration is the same of the speed. *)
Theorem C32_linear_speed : forall pi norm x y z h dt ft,
  compute_kinematic_features pi norm x y z h dt = Ok ft ->
  forall j x0 x1 y0 y1 z0 z1,
  nth_error x j = Some (Some x0) -> nth_error x (S (S j)) = Some (Some x1) ->
  nth_error y j = Some (Some y0) -> nth_error y (S (S j)) = Some (Some y1) ->
  nth_error z j = Some (Some z0) -> nth_error z (S (S j)) = Some (Some z1) ->
  nth_error (linear_speed ft) (S j) =
    Some (Some (norm ((x1 - x0) / 2) ((y1 - y0) / 2) ((z1 - z0) / 2) / dt)).
Proof. exact speed_value. Qed.
Print Assumptions C32_linear_speed.

Theorem C32_linear_acceleration : forall pi norm x y z h dt ft,
  compute_kinematic_features pi norm x y z h dt = Ok ft ->
  forall j s0 s1,
  nth_error (linear_speed ft) j = Some (Some s0) ->
  nth_error (linear_speed ft) (S (S j)) = Some (Some s1) ->
  nth_error (linear_accel ft) (S j) = Some (Some ((s1 - s0) / 2 / dt)).
Proof. exact accel_value. Qed.
Print Assumptions C32_linear_acceleration.

(** The turn per step is half the heading change between the neighbouring steps,
    modulo half turns, in [-pi/2, pi/2). *)
Theorem C32_angular_speed : forall pi norm x y z h dt ft j h0 h1, 0 < pi -> ~ dt == 0 ->
  compute_kinematic_features pi norm x y z h dt = Ok ft ->
  nth_error h j = Some (Some h0) -> nth_error h (S (S j)) = Some (Some h1) ->
  exists w, number_at (angular_speed ft) (S j) w /\
    - (pi / 2) <= w * dt < pi / 2 /\ same_mod pi (w * dt) ((h1 - h0) / 2).
Proof. exact angular_speed_spec. Qed.
Print Assumptions C32_angular_speed.

Theorem C32_angular_acceleration : forall pi norm x y z h dt ft j w0 w1, 0 < pi -> ~ dt == 0 ->
  compute_kinematic_features pi norm x y z h dt = Ok ft ->
  nth_error (angular_speed ft) j = Some (Some w0) ->
  nth_error (angular_speed ft) (S (S j)) = Some (Some w1) ->
  exists a, number_at (angular_accel ft) (S j) a /\
    - (pi / 2) <= a * (dt * dt) < pi / 2 /\ same_mod pi (a * (dt * dt)) ((w1 * dt - w0 * dt) / 2).
Proof. exact angular_accel_spec. Qed.
Print Assumptions C32_angular_acceleration.

(** A constant turn below a quarter of a turn per step is measured exactly,
    however the logged headings are wrapped, and its acceleration is zero. *)
Theorem C32_uniform_turn : forall pi norm x y z h dt ft h0 w,
  0 < pi -> ~ dt == 0 -> - (pi / 2) <= w < pi / 2 ->
  compute_kinematic_features pi norm x y z h dt = Ok ft ->
  (forall i v, nth_error h i = Some v ->
     exists q, v = Some q /\ same_mod (2 * pi) q (h0 + inject_Z (Z.of_nat i) * w)) ->
  (forall i, (1 <= i)%nat -> (i + 1 < length h)%nat -> number_at (angular_speed ft) i (w / dt)) /\
  (forall i, (2 <= i)%nat -> (i + 2 < length h)%nat -> number_at (angular_accel ft) i 0).
Proof. exact uniform_turn. Qed.
Print Assumptions C32_uniform_turn.

(** On a log without NaN the features are NaN exactly on the border steps. *)
Theorem C32_nan_exactly_on_borders : forall pi norm x y z h dt ft,
  compute_kinematic_features pi norm x y z h dt = Ok ft ->
  forall i, numbers x -> numbers y -> numbers z -> numbers h ->
  ((exists q, nth_error (linear_speed ft) i = Some (Some q)) <-> (1 <= i /\ i + 1 < length x)%nat) /\
  ((exists q, nth_error (linear_accel ft) i = Some (Some q)) <-> (2 <= i /\ i + 2 < length x)%nat) /\
  ((exists q, nth_error (angular_speed ft) i = Some (Some q)) <-> (1 <= i /\ i + 1 < length h)%nat) /\
  ((exists q, nth_error (angular_accel ft) i = Some (Some q)) <-> (2 <= i /\ i + 2 < length h)%nat).
Proof.
  exact (fun pi norm x y z h dt ft H i Nx Ny Nz Nh =>
    conj (speed_number_iff _ _ _ _ _ _ _ _ H i Nx Ny Nz)
   (conj (accel_number_iff _ _ _ _ _ _ _ _ H i Nx Ny Nz)
   (conj (angular_number_iff _ _ _ _ _ _ _ _ H i Nh)
         (angular_accel_number_iff _ _ _ _ _ _ _ _ H i Nh)))).
Qed.
Print Assumptions C32_nan_exactly_on_borders.

(** If the valid input steps are numbers, so are the valid feature steps, and
    these do not depend on the invalid input steps. *)
Theorem C32_valid_is_number : forall pi norm valid speed accel x y z h dt ft,
  compute_kinematic_validity valid = (speed, accel) ->
  (forall i, true_at valid i -> forall l, In l [x; y; z; h] -> exists q, nth_error l i = Some (Some q)) ->
  compute_kinematic_features pi norm x y z h dt = Ok ft ->
  (forall i, true_at speed i -> (exists q, nth_error (linear_speed ft) i = Some (Some q)) /\
                                (exists q, nth_error (angular_speed ft) i = Some (Some q))) /\
  (forall i, true_at accel i -> (exists q, nth_error (linear_accel ft) i = Some (Some q)) /\
                                (exists q, nth_error (angular_accel ft) i = Some (Some q))).
Proof. exact valid_is_number. Qed.
Print Assumptions C32_valid_is_number.

Theorem C32_valid_steps_only : forall pi norm valid speed accel x y z h x' y' z' h' dt ft ft',
  compute_kinematic_validity valid = (speed, accel) ->
  agree_on valid x x' -> agree_on valid y y' -> agree_on valid z z' -> agree_on valid h h' ->
  compute_kinematic_features pi norm x y z h dt = Ok ft ->
  compute_kinematic_features pi norm x' y' z' h' dt = Ok ft' ->
  agree_on speed (linear_speed ft) (linear_speed ft') /\
  agree_on speed (angular_speed ft) (angular_speed ft') /\
  agree_on accel (linear_accel ft) (linear_accel ft') /\
  agree_on accel (angular_accel ft) (angular_accel ft').
Proof. exact valid_steps_only. Qed.
Print Assumptions C32_valid_steps_only.

(** The displacement is zero exactly at the reference, and moving both changes nothing. *)
Theorem C32_displacement_zero (norm : Q -> Q -> Q -> Q) : (forall a b c, norm a b c == 0 <-> a == 0 /\ b == 0 /\ c == 0) ->
  forall x y z rx ry rz, displacement_error norm x y z rx ry rz == 0 <-> x == rx /\ y == ry /\ z == rz.
Proof. exact (displacement_zero norm). Qed.
Print Assumptions C32_displacement_zero.
Theorem C32_displacement_translated (norm : Q -> Q -> Q -> Q) : (forall a b c a' b' c', a == a' -> b == b' -> c == c' -> norm a b c == norm a' b' c') ->
  forall x y z rx ry rz dx dy dz, displacement_error norm (x + dx) (y + dy) (z + dz) (rx + dx) (ry + dy) (rz + dz) == displacement_error norm x y z rx ry rz.
Proof. exact (displacement_translated norm). Qed.
Print Assumptions C32_displacement_translated.

(** * Concrete cases *)

Example demo_validity :
  compute_kinematic_validity [true; true; true; false; true; true; true; true] =
  ([false; true; false; true; false; true; true; false],
   [false; false; true; false; true; false; false; false]) .
Proof. reflexivity. Qed.

(** Turning left by one per step with [pi] = 3: the heading wraps from 3 to -3. *)
Definition demo_headings : list (option Q) := map Some [1; 2; -3; -2; -1; 0].
Example demo_turn : exists ft,
  compute_kinematic_features 3 (fun a b c => a + b + c) (map Some [0; 1; 4; 9; 16; 25])
    (repeat (Some 0) 6) (repeat (Some 0) 6) demo_headings (1 # 2) = Ok ft /\
  number_at (angular_speed ft) 2 2 /\ number_at (linear_speed ft) 2 8 /\
  number_at (linear_accel ft) 2 8 /\ nth_error (linear_speed ft) 0 = Some None.
Proof. eexists. split; [reflexivity|]. repeat split; eexists; split; reflexivity. Qed.
