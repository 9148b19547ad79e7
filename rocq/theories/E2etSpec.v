(** What the properties of the end-to-end driving tutorial talk about. *)
From Coq Require Import Reals.
From Verif Require Import Base E2etModel.
Open Scope list_scope.

(** Front left, front and front right. *)
Definition front_cameras : list Z := [2; 1; 3]%Z.
(** Image [a] at [i] is the first of a camera. *)
Definition first_image {I} (images : list (Z * I)) (camera : Z) (i : nat) (a : I) : Prop :=
  nth_error images i = Some (camera, a) /\ forall j n b, (j < i)%nat -> nth_error images j = Some (n, b) -> n <> camera.
(** The first image of each camera with the calibration at the same place, without cameras that have no image. *)
Inductive picked {I C} (images : list (Z * I)) (calibrations : list (Z * C)) : list Z -> list I -> list (Z * C) -> Prop :=
| Picked_end : picked images calibrations [] [] []
| Picked_absent c l is cs : (forall n a, In (n, a) images -> n <> c) -> picked images calibrations l is cs -> picked images calibrations (c :: l) is cs
| Picked_present c l is cs i a k : first_image images c i a -> nth_error calibrations i = Some k ->
    picked images calibrations l is cs -> picked images calibrations (c :: l) (a :: is) (k :: cs).
(** Images and calibrations list the cameras in the same order. *)
Definition same_order {I C} (images : list (Z * I)) (calibrations : list (Z * C)) : Prop :=
  forall i n a, nth_error images i = Some (n, a) -> exists k, nth_error calibrations i = Some (n, k).

(** The last entry of a name. *)
Definition last_for {A} (name : Z) (l : list (Z * A)) (a : A) : Prop :=
  exists i, nth_error l i = Some (name, a) /\ forall j n b, (i < j)%nat -> nth_error l j = Some (n, b) -> n <> name.

Open Scope R_scope.
(** The distances at the steps of the mask. *)
Inductive distances : list waypoint -> list waypoint -> list bool -> list R -> Prop :=
| Dist_end : distances [] [] [] []
| Dist_yes p q ps qs m ds d : 0 <= d -> d * d = (fst p - fst q) * (fst p - fst q) + (snd p - snd q) * (snd p - snd q) ->
    distances ps qs m ds -> distances (p :: ps) (q :: qs) (true :: m) (d :: ds)
| Dist_no p q ps qs m ds : distances ps qs m ds -> distances (p :: ps) (q :: qs) (false :: m) ds.
(** Their mean, zero if there are none. *)
Definition mean_of (ds : list R) (x : R) : Prop := (ds = [] /\ x = 0) \/ (ds <> [] /\ x * INR (length ds) = fold_right Rplus 0 ds).
(** A frame has ratings: there are trajectories, and the score of the first is not -1. *)
Definition has_ratings (f : frame) : Prop := exists s l, preference_scores f = s :: l /\ s <> -1.
(** The current speed of a frame. *)
Definition speed (f : frame) (v : R) : Prop := exists l w, past_velocity f = l ++ [w] /\ 0 <= v /\ v * v = fst w * fst w + snd w * snd w.
