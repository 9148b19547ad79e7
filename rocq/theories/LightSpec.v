(** What driving over a red light means. *)
From Coq Require Import QArith ZArith List.
From Verif Require Import LightModel.
Import ListNotations.
Open Scope Q_scope.

(** How far [p] is ahead of [s] in the direction [c], scaled. *)
Definition along (p s c : pt) : Q := (fst p - fst s) * fst c + (snd p - snd s) * snd c.
(** The point at the fraction [t] from [a] to [b], the squared distance of points. *)
Definition between (a b : pt) (t : Q) : pt := (fst a + t * (fst b - fst a), snd a + t * (snd b - snd a)).
Definition dist2 (p q : pt) : Q := (fst p - fst q) * (fst p - fst q) + (snd p - snd q) * (snd p - snd q).
(** The fraction of the point of the segment that is nearest to [p]. *)
Definition is_foot (p a b : pt) (t : Q) : Prop :=
  0 <= t <= 1 /\ forall t', 0 <= t' <= 1 -> dist2 p (between a b t) <= dist2 p (between a b t').
(** The squared distance of [p] to the segment, and what the code takes for it: the distance of [p] to the point
    as far before the start of the segment as the foot is behind it. *)
Definition segment_distance2 (p a b : pt) (m : Q) : Prop := exists t, is_foot p a b t /\ m == dist2 p (between a b t).
Definition skew2 (p a b : pt) (m : Q) : Prop := exists t, is_foot p a b t /\ m == dist2 p (between a b (- t)).

(** Lanes with two points or more, and their ids. *)
Definition roads := list (list pt * Z).
Definition usable (lanes : list (list pt)) (ids : list Z) : roads :=
  filter (fun l => Nat.leb 2 (length (fst l))) (combine lanes ids).
(** The segments of a lane; if another lane has more points, one more from its end to the origin. *)
Definition real_segment (lane : list pt) (k : nat) (a b : pt) : Prop := nth_error lane k = Some a /\ nth_error lane (S k) = Some b.
Definition counts (r : roads) (lane : list pt) (k : nat) (a b : pt) : Prop :=
  real_segment lane k a b \/
  (S k = length lane /\ nth_error lane k = Some a /\ b = (0, 0) /\ exists other, In other r /\ (length lane < length (fst other))%nat).
(** The first lane and segment of it for which the code finds the least distance. *)
Definition chosen (r : roads) (p : pt) (i k : nat) : Prop :=
  exists lane id a b m, nth_error r i = Some (lane, id) /\ counts r lane k a b /\ skew2 p a b m /\
    forall i' k' lane' id' a' b' m', nth_error r i' = Some (lane', id') -> counts r lane' k' a' b' -> skew2 p a' b' m' ->
      m < m' \/ (m == m' /\ ((i < i')%nat \/ (i = i' /\ (k <= k')%nat))).
Definition drives_on (r : roads) (p : pt) (id : Z) : Prop := exists i k lane, chosen r p i k /\ nth_error r i = Some (lane, id).
(** The direction of the segment of the lane [id] that the code takes for the stop point [s]. *)
Definition first_lane (r : roads) (id : Z) (lane : list pt) : Prop :=
  exists i, nth_error r i = Some (lane, id) /\ forall i' lane', (i' < i)%nat -> nth_error r i' <> Some (lane', id).
Definition stop_direction (r : roads) (id : Z) (s c : pt) : Prop :=
  exists lane k a b m, first_lane r id lane /\ counts r lane k a b /\ skew2 s a b m /\ c = (fst b - fst a, snd b - snd a) /\
    forall k' a' b' m', counts r lane k' a' b' -> skew2 s a' b' m' -> m < m' \/ (m == m' /\ (k <= k')%nat).

(** The signal shown for a lane at a step: the last one listed. *)
Definition shown (signals : list (list signal)) (t : nat) (id : Z) (s : signal) : Prop :=
  exists before after, nth_error signals t = Some (before ++ s :: after) /\ s_lane s = id /\ forall x, In x after -> s_lane x <> id.
Definition red (s : signal) : Prop := s_state s = 1%Z \/ s_state s = 4%Z.
(** The stop point for a lane at a step: that of the signal shown, the origin if none is. *)
Definition stop_at (signals : list (list signal)) (t : nat) (id : Z) (p : pt) : Prop :=
  (exists s, shown signals t id s /\ p = s_stop s) \/
  (exists l, nth_error signals t = Some l /\ (forall s, In s l -> s_lane s <> id) /\ p = (0, 0)).
(** A violation at a step: the object is valid, the lane it is on shows red, and it went from strictly behind
    its stop point to strictly ahead. *)
Definition violation (r : roads) (signals : list (list signal)) (row : list (pt * bool)) (t : nat) : Prop :=
  exists u q vq p id s stop' c c',
    t = S u /\ nth_error row u = Some (q, vq) /\ nth_error row t = Some (p, true) /\
    drives_on r p id /\ shown signals t id s /\ red s /\ stop_at signals u id stop' /\
    stop_direction r id stop' c' /\ along q stop' c' < 0 /\
    stop_direction r id (s_stop s) c /\ 0 < along p (s_stop s) c.

(** Nothing is farther than a million kilometres from the axes. *)
Definition near_origin (p : pt) : Prop := - (1000000000) <= fst p <= 1000000000 /\ - (1000000000) <= snd p <= 1000000000.
Definition bounded (lanes : list (list pt)) (signals : list (list signal)) (objects : list (list (pt * bool))) : Prop :=
  (forall lane p, In lane lanes -> In p lane -> near_origin p) /\
  (forall l s, In l signals -> In s l -> near_origin (s_stop s)) /\
  (forall row c, In row objects -> In c row -> near_origin (fst c)).
(** A list of the elements of a set. *)
Definition lists_set (order : list Z -> list Z) : Prop := forall l, NoDup (order l) /\ forall x, In x (order l) <-> In x l.

(** All segments point in the direction [c]. *)
Definition straight (lane : list pt) (c : pt) : Prop :=
  forall k a b, real_segment lane k a b -> exists x, 0 < x /\ fst b - fst a == x * fst c /\ snd b - snd a == x * snd c.
(** The entry of an output. *)
Definition cell_of (out : list (list bool)) (i t : nat) : option bool :=
  match nth_error out i with Some row => nth_error row t | None => None end.
(** Strictly nearest to the lane [id]: a point of it is nearer to [p] than any point of a lane with another id. *)
Definition nearest_lane (r : roads) (p : pt) (id : Z) : Prop :=
  exists lane k a b x, In (lane, id) r /\ real_segment lane k a b /\ 0 <= x <= 1 /\
    forall lane' id' k' a' b' y, In (lane', id') r -> id' <> id -> real_segment lane' k' a' b' -> 0 <= y <= 1 ->
      dist2 p (between a b x) < dist2 p (between a' b' y).
