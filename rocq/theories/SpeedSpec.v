(** What the estimated speeds should be. Shared with the model: the record of an object. *)
From Verif Require Import Base BreakdownModel SpeedModel.
Open Scope list_scope.

(** How far the centers of two objects are apart, [root] being the square root. *)
Definition apart (root : Q -> Q) (a b : entry) : Q :=
  let dx := (cx (body a) - cx (body b))%Q in let dy := (cy (body a) - cy (body b))%Q in let dz := (cz (body a) - cz (body b))%Q in
  root (dx * dx + dy * dy + dz * dz)%Q.

(** [g] is the nearest of [gts] to [p], the first one if several are equally near. *)
Definition nearest (root : Q -> Q) (p : entry) (gts : list entry) (g : entry) : Prop :=
  exists before after, gts = before ++ g :: after
    /\ (forall h, In h before -> (apart root p g < apart root p h)%Q)
    /\ (forall h, In h after -> (apart root p g <= apart root p h)%Q).

(** [q] is [p] with the given speed. *)
Definition with_speed (p : entry) (x y : Q) (q : entry) : Prop :=
  body q = body p /\ accel_x q = accel_x p /\ speed_x q = Some x /\ speed_y q = Some y.
(** The speed an object declares, zero where it declares none. *)
Definition declared (o : option Q) (x : Q) : Prop := o = Some x \/ (o = None /\ x = 0%Q).

(** [q] is [p] with the speed of the nearest ground truth, or no speed if there is none. *)
Definition estimated (root : Q -> Q) (gts : list entry) (p q : entry) : Prop :=
  (gts = [] /\ with_speed p 0 0 q)
  \/ exists g x y, nearest root p gts g /\ declared (speed_x g) x /\ declared (speed_y g) y /\ with_speed p x y q.

(** [o] is the object [e] with the speed it declares, if it declares both components. *)
Definition sees (e : entry) (o : object) : Prop :=
  (forall x y, speed o = Some (x, y) <-> speed_x e = Some x /\ speed_y e = Some y) /\
  typ o = typ (body e) /\ cx o = cx (body e) /\ cy o = cy (body e) /\ cz o = cz (body e) /\ len o = len (body e) /\ wid o = wid (body e) /\ hei o = hei (body e) /\
  camera_name o = camera_name (body e) /\ most_visible o = most_visible (body e) /\ bearing o = bearing (body e) /\ score o = score (body e).

(** The object declares its speed. *)
Definition has_speed (p : entry) : Prop := speed_x p <> None /\ speed_y p <> None.

(** The measurements are broken down by velocity. *)
Definition by_velocity (c : config) : Prop := In VELOCITY (generators c).
