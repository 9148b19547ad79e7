(** Specification of breakdowns: what the name of a shard says about its objects. *)
From Coq Require Import String.
From Verif Require Import Base BreakdownModel.
Open Scope Q_scope.

Definition sqnorm3 (o : object) : Q := cx o * cx o + cy o * cy o + cz o * cz o.
Definition sqspeed (o : object) : Q := match speed o with Some (x, y) => x * x + y * y | None => 0 end.
(** Buckets by label. *)
Definition range_bucket (o : object) (b : string) : Prop :=
  (b = "[0, 30)"%string /\ sqnorm3 o < 900) \/ (b = "[30, 50)"%string /\ 900 <= sqnorm3 o < 2500) \/
  (b = "[50, +inf)"%string /\ 2500 <= sqnorm3 o).
Definition size_bucket (o : object) (b : string) : Prop :=
  (b = "small"%string /\ len o < 7 /\ wid o < 7 /\ hei o < 7) \/ (b = "large"%string /\ (7 <= len o \/ 7 <= wid o \/ 7 <= hei o)).
Definition speed_bucket (o : object) (b : string) : Prop :=
  let s := sqspeed o in let k := k_stationary * k_stationary in
  (b = "STATIONARY"%string /\ s < k) \/ (b = "SLOW"%string /\ k <= s < 1) \/ (b = "MEDIUM"%string /\ 1 <= s < 9) \/
  (b = "FAST"%string /\ 9 <= s < 100) \/ (b = "VERY_FAST"%string /\ 100 <= s).
(** The camera of an object: named, else the most visible one, else the first whose view contains it. *)
Definition view_center (c : camera) : option (Q * string) :=
  match c with
  | FRONT => Some (0, "FRONT"%string) | FRONT_LEFT => Some (45, "FRONT-LEFT"%string) | FRONT_RIGHT => Some (-45, "FRONT-RIGHT"%string)
  | SIDE_LEFT => Some (90, "SIDE-LEFT"%string) | SIDE_RIGHT => Some (-90, "SIDE-RIGHT"%string) | _ => None
  end.
Definition sees (c : camera) (o : object) : Prop :=
  exists d n, view_center c = Some (d, n) /\ d - (252#10) < bearing o < d + (252#10).
Definition search_order : list camera := [FRONT; FRONT_LEFT; FRONT_RIGHT; SIDE_LEFT; SIDE_RIGHT].
Definition first_seeing (c : camera) (o : object) : Prop :=
  exists l1 l2, search_order = l1 ++ c :: l2 /\ sees c o /\ forall c', In c' l1 -> ~ sees c' o.
Definition object_camera (c : camera) (o : object) : Prop :=
  camera_name o = Some c \/ (camera_name o = None /\ most_visible o = Some (Some c)) \/
  (camera_name o = None /\ most_visible o = None /\ first_seeing c o).
Definition camera_bucket (o : object) (b : string) : Prop :=
  exists c d, object_camera c o /\ view_center c = Some (d, b).

Definition type_name (t : otype) : string := type_name_of_num (type_num t).
(** [belongs g o n]: the object belongs to the breakdown named [n] of generator [g]. *)
Definition belongs (g : genid) (o : object) (n : string) : Prop :=
  match g with
  | ONE_SHARD => n = "ONE_SHARD"%string
  | ALL_BUT_SIGN => (n = "SIGN"%string /\ typ o = TYPE_SIGN) \/ (n = "ALL_BUT_SIGN"%string /\ typ o <> TYPE_SIGN)
  | OBJECT_TYPE => typ o <> TYPE_UNKNOWN /\ n = cat ["OBJECT_TYPE_"; type_name (typ o)]%string
  | RANGE => typ o <> TYPE_UNKNOWN /\ exists b, range_bucket o b /\ n = cat ["RANGE_"; type_name (typ o); "_"; b]%string
  | SIZE => typ o <> TYPE_UNKNOWN /\ exists b, size_bucket o b /\ n = cat ["SIZE_"; type_name (typ o); "_"; b]%string
  | VELOCITY => typ o <> TYPE_UNKNOWN /\ exists b, speed_bucket o b /\ n = cat ["VELOCITY_"; type_name (typ o); "_"; b]%string
  | CAMERA => typ o <> TYPE_UNKNOWN /\ exists b, camera_bucket o b /\ n = cat ["CAMERA_"; type_name (typ o); "_"; b]%string
  | _ => False
  end.
(** Inputs on which the program stops: a camera without shard. *)
Definition camera_unsupported (o : object) : Prop :=
  typ o <> TYPE_UNKNOWN /\ exists c, view_center c = None /\
    (camera_name o = Some c \/ (camera_name o = None /\ most_visible o = Some (Some c))).

(** Two ways to name the breakdowns agree: same names, or both fail. *)
Definition agree {A} (a b : result A) : Prop :=
  match a, b with Ok x, Ok y => x = y | Err _, Err _ => True | _, _ => False end.
(** The shards an object is put into. *)
Definition member (g : genid) (is_detection : bool) (o : object) (s : Z) : bool :=
  if is_detection && gt_only g
  then match shards_for_matching g o with Ok l => existsb (Z.eqb s) l | Err _ => false end
  else match shard g o with Ok s' => (s =? s')%Z | Err _ => false end.
(** Expected indices of a subset: the members in order, above the cutoff for predictions. *)
Definition member_indices (objs : list object) (P : object -> bool) : list nat :=
  filter (fun j => match nth_error objs j with Some o => P o | None => false end) (seq 0 (length objs)).
Definition expected_subsets (c : config) (objs : list object) (is_gt is_detection : bool) : list subset :=
  concat (map (fun ig => map (fun s =>
    {| gen_index := fst ig; sub_shard := s;
       indices := if is_gt then [member_indices objs (fun o => member (snd ig) is_detection o s)]
                  else map (fun q => member_indices objs (fun o => member (snd ig) is_detection o s && Qle_bool q (score o))) (cutoffs c) |})
    (zrange (num_shards (snd ig)))) (combine (seq 0 (length (generators c))) (generators c))).
