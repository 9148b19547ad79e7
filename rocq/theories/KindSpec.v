(** What the geometric parts of the motion metrics mean: kinds of tracks, matches, boxes and the reported numbers. *)
From Coq Require Import Sorting.Sorted Qabs.
From Verif Require Import Base MotionModel MotionSpec.
Open Scope Z_scope.

(** [s] is the state at step [p], [e] the last valid state after it. *)
Definition starts (tr : track) (p : Z) (s : state) : Prop := 0 <= p /\ nth_error (tr_states tr) (Z.to_nat p) = Some s.
Definition ends (tr : track) (p : Z) (e : state) : Prop :=
  exists i, p < Z.of_nat i /\ nth_error (tr_states tr) i = Some e /\ st_valid e = true /\
    forall j q, (i < j)%nat -> nth_error (tr_states tr) j = Some q -> st_valid q = false.
(** Below 2 m/s at both ends and less than 3 m apart. *)
Definition stands (g : geom) (s e : state) : Prop :=
  (g_hypot g (st_vx s) (st_vy s) < 2)%Q /\ (g_hypot g (st_vx e) (st_vy e) < 2)%Q /\ (g_hypot g (st_x e - st_x s) (st_y e - st_y s) < 3)%Q.
(** The heading changed by less than 30 degrees. *)
Definition keeps_heading (g : geom) (s e : state) : Prop := (Qabs (g_norm g (st_heading e - st_heading s)) < g_pi6 g)%Q.
(** The end as seen from the start: ahead and to the left. *)
Definition seen (g : geom) (s e : state) : Q * Q := g_rotate g (- st_heading s)%Q ((st_x e - st_x s)%Q, (st_y e - st_y s)%Q).
Inductive kind (g : geom) (s e : state) : Z -> Prop :=
| Kind_stationary : stands g s e -> kind g s e 0
| Kind_straight : ~ stands g s e -> keeps_heading g s e -> (Qabs (snd (seen g s e)) < 5 # 2)%Q -> kind g s e 1
| Kind_straight_left : ~ stands g s e -> keeps_heading g s e -> (5 # 2 <= snd (seen g s e))%Q -> kind g s e 2
| Kind_straight_right : ~ stands g s e -> keeps_heading g s e -> (snd (seen g s e) <= - (5 # 2))%Q -> kind g s e 3
| Kind_left_u : ~ stands g s e -> ~ keeps_heading g s e -> (0 <= snd (seen g s e))%Q -> (fst (seen g s e) < 0)%Q -> kind g s e 4
| Kind_left : ~ stands g s e -> ~ keeps_heading g s e -> (0 <= snd (seen g s e))%Q -> (0 <= fst (seen g s e))%Q -> kind g s e 5
| Kind_right_u : ~ stands g s e -> ~ keeps_heading g s e -> (snd (seen g s e) < 0)%Q -> (fst (seen g s e) < 0)%Q -> kind g s e 6
| Kind_right : ~ stands g s e -> ~ keeps_heading g s e -> (snd (seen g s e) < 0)%Q -> (0 <= fst (seen g s e))%Q -> kind g s e 7.

(** The kinds from the least to the most important: stationary, straight, straight right, straight left, right turn, left turn,
    left U turn, right U turn. *)
Definition importance : list Z := [0; 1; 3; 2; 7; 5; 4; 6].
Definition at_most_as_important (a b : Z) : Prop :=
  exists i j, (i <= j)%nat /\ nth_error importance i = Some a /\ nth_error importance j = Some b.
(** Right U turns are counted as right turns. *)
Definition counted_as (a k : Z) : Prop := (a = 6 /\ k = 7) \/ (a <> 6 /\ k = a).

(** The scale for the speed at the current step: the lower scale up to the lower speed, the upper one from the upper speed on, and
    in between on the line. *)
Definition scaled_by (g : geom) (c : mcfg) (tr : track) (f : Q) : Prop :=
  exists s, nth_error (tr_states tr) (Z.to_nat (hist c)) = Some s /\
    let v := g_hypot g (st_vx s) (st_vy s) in
    ((v < spd_lo c)%Q /\ (f == scl_lo c)%Q) \/ ((spd_hi c < v)%Q /\ (f == scl_hi c)%Q) \/
    ((spd_lo c <= v)%Q /\ (v <= spd_hi c)%Q /\ ((f - scl_lo c) * (spd_hi c - spd_lo c) == (scl_hi c - scl_lo c) * (v - spd_lo c))%Q).
(** The error of a trajectory at a step, ahead and to the left as seen from the logged object, within the thresholds. *)
Definition hits (g : geom) (c : mcfg) (ids : idmap) (sc : step_cfg) (t : traj) (within : Prop) : Prop :=
  exists tr s x y f, get_track (tj_id t) ids = Ok tr /\
    nth_error (tr_states tr) (Z.to_nat ((m_step sc + 1) * (tsps c / psps c) + hist c)) = Some s /\ st_valid s = true /\
    nth_error (tj_x t) (Z.to_nat (m_step sc)) = Some x /\ nth_error (tj_y t) (Z.to_nat (m_step sc)) = Some y /\ scaled_by g c tr f /\
    let d := g_rotate g (- st_heading s)%Q ((x - st_x s)%Q, (y - st_y s)%Q) in
    (within <-> (- lon_thr sc <= fst d / f <= lon_thr sc)%Q /\ (- lat_thr sc <= snd d / f <= lat_thr sc)%Q).

(** The positions of a trajectory at some steps. *)
Definition positions (t : traj) : list Z -> list (Q * Q) -> Prop :=
  Forall2 (fun j q => nth_error (tj_x t) (Z.to_nat j) = Some (fst q) /\ nth_error (tj_y t) (Z.to_nat j) = Some (snd q)).
