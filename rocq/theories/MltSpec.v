(** What the properties of the point cloud tutorials talk about. *)
From Coq Require Import QArith.
From Verif Require Import Base MltModel.
Open Scope list_scope.

(** A lidar point drawn: moved by the pose and by the offset, coloured by its range. *)
Definition drawn (pose : list Q) (offset : Q * Q * Q) (row : list Q) (p : Q * Q * Q * Q) : Prop :=
  exists r i e x y z a0 a1 a2 a3 b0 b1 b2 b3 c0 c1 c2 c3 d0 d1 d2 d3 ox oy oz,
    row = [r; i; e; x; y; z] /\ pose = [a0; a1; a2; a3; b0; b1; b2; b3; c0; c1; c2; c3; d0; d1; d2; d3] /\ offset = (ox, oy, oz) /\
    exists px py pz, p = (px, py, pz, r) /\
      (px == a0 * x + a1 * y + a2 * z + a3 + ox)%Q /\ (py == b0 * x + b1 * y + b2 * z + b3 + oy)%Q /\ (pz == c0 * x + c1 * y + c2 * z + c3 + oz)%Q.
(** The calibration of a laser: the first of its name, or none. *)
Inductive calibration_of {C} (name : Z) : list (Z * C) -> option C -> Prop :=
| calibration_none : calibration_of name [] None
| calibration_here c l : calibration_of name ((name, c) :: l) (Some c)
| calibration_later n c l o : n <> name -> calibration_of name l o -> calibration_of name ((n, c) :: l) o.
(** The extraction of one laser of a frame. *)
Definition extracted {P D C X F} (top : D -> P -> option C -> result (list X * list F * list X * list F)) (side : D -> option C -> result (list X * list F * list X * list F))
    (f : laser_frame P D C) (laser : Z * D) (x : list X) (y : list F) : Prop :=
  exists c x1 f1 x2 f2, calibration_of (fst laser) (l_calibrations f) c /\ x = x1 ++ x2 /\ y = f1 ++ f2 /\
    ((fst laser = 1%Z /\ top (snd laser) (l_pose f) c = Ok (x1, f1, x2, f2)) \/ (fst laser <> 1%Z /\ side (snd laser) c = Ok (x1, f1, x2, f2))).
(** Points and features of all lasers, one after the other. *)
Inductive all_lasers {P D C X F} (top : D -> P -> option C -> result (list X * list F * list X * list F)) (side : D -> option C -> result (list X * list F * list X * list F))
    (f : laser_frame P D C) : list (Z * D) -> list X -> list F -> Prop :=
| all_lasers_nil : all_lasers top side f [] [] []
| all_lasers_cons laser l x y xs ys : extracted top side f laser x y -> all_lasers top side f l xs ys -> all_lasers top side f (laser :: l) (x ++ xs) (y ++ ys).
(** The points seen by a camera, in order, with the place in the image and the range. *)
Inductive seen_by {P} (norm : P -> Q) (camera : Z) : list (list Z) -> list P -> list (list Q) -> Prop :=
| seen_nil : seen_by norm camera [] [] []
| seen_yes x y more p cps ps r : seen_by norm camera cps ps r -> seen_by norm camera ((camera :: x :: y :: more) :: cps) (p :: ps) ([inject_Z x; inject_Z y; norm p] :: r)
| seen_no c more p cps ps r : c <> camera -> seen_by norm camera cps ps r -> seen_by norm camera ((c :: more) :: cps) (p :: ps) r.
