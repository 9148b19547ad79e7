(** C134: the boxes of predictions and their overlaps. *)
From Coq Require Import Reals List Arith.
From Verif Require Import LidSpec Base ResultLib GeomModel PolyModel PolySpec PolyBoxSpec HitModel HitSpec.
From Verif Require Import HitProofs HitExample.
Import ListNotations.
Open Scope R_scope.
(** At the first and the last step the box faces the way to the next or from the last position. *)
Theorem C134_ends ps : (2 <= length ps)%nat ->
  direction (nth 0 ps (0, 0)) (nth 1 ps (0, 0)) (prediction_heading ps 0) /\
  direction (nth (length ps - 2) ps (0, 0)) (nth (length ps - 1) ps (0, 0)) (prediction_heading ps (length ps - 1)).
Proof. exact (heading_ends ps). Qed.
Print Assumptions C134_ends.
(** In between it faces halfway between the two ways, or east if they are opposite. *)
Theorem C134_between ps i : (0 < i)%nat -> (i + 1 < length ps)%nat ->
  let h := prediction_heading ps i in - PI < h <= PI /\
  exists before after, direction (nth (i - 1) ps (0, 0)) (nth i ps (0, 0)) before /\ direction (nth i ps (0, 0)) (nth (i + 1) ps (0, 0)) after /\
    ((~ opposite after before /\ halfway after before h) \/ (opposite after before /\ h = 0)).
Proof. exact (heading_between ps i). Qed.
Print Assumptions C134_between.
(** Moving the trajectory does not change the headings. *)
Theorem C134_moved d ps i : (2 <= length ps)%nat -> (i < length ps)%nat ->
  prediction_heading (map (moved d) ps) i = prediction_heading ps i.
Proof. exact (heading_moved d ps i). Qed.
Print Assumptions C134_moved.
(** Turning a trajectory that moves and does not reverse turns the headings. *)
Theorem C134_turned t ps i : (i < length ps)%nat ->
  (forall k, (k + 1 < length ps)%nat -> (k = i \/ k + 1 = i)%nat -> ~ stays (nth k ps (0, 0)) (nth (k + 1) ps (0, 0))) ->
  (forall before after, (0 < i)%nat -> (i + 1 < length ps)%nat -> direction (nth (i - 1) ps (0, 0)) (nth i ps (0, 0)) before ->
    direction (nth i ps (0, 0)) (nth (i + 1) ps (0, 0)) after -> ~ opposite after before) ->
  (2 <= length ps)%nat ->
  same_direction (prediction_heading (map (turned t) ps) i) (prediction_heading ps i + t).
Proof. exact (heading_turned t ps i). Qed.
Print Assumptions C134_turned.
(** A prediction that stays faces east. *)
Theorem C134_still p n i : (2 <= n)%nat -> (i < n)%nat -> prediction_heading (repeat p n) i = 0.
Proof. exact (heading_still p n i). Qed.
Print Assumptions C134_still.
(** So the correct prediction that a parked car stays can overlap a car it has no point in common with. *)
Theorem C134_still_refuted : exists car other ps i, proper car /\ proper other /\
  (forall k, (k < length ps)%nat -> nth k ps (0, 0) = (bx car, by_ car)) /\ (i < length ps)%nat /\
  (forall z, covers car z -> covers other z -> False) /\
  overlaps (prediction_polygon ps i (blength car) (bwidth car)) other = Ok true.
Proof. exact (still_refuted ). Qed.
Print Assumptions C134_still_refuted.
(** Going north and back, the box faces east in between. *)
Theorem C134_return : prediction_heading [(0, 0); (0, 1); (0, 0)] 1 = 0.
Proof. exact (return_east ). Qed.
Print Assumptions C134_return.
(** Boxes without a common point do not overlap. *)
Theorem C134_apart ps i len wid b : (2 <= length ps)%nat -> 0 < len -> 0 < wid -> proper b ->
  (forall z, covers (box_at (nth i ps (0, 0)) (prediction_heading ps i) len wid) z -> covers b z -> False) -> overlaps (prediction_polygon ps i len wid) b = Ok false.
Proof. exact (prediction_apart ps i len wid b). Qed.
Print Assumptions C134_apart.
(** Boxes that overlap have a common point. *)
Theorem C134_sound ps i len wid b : (2 <= length ps)%nat -> 0 < len -> 0 < wid -> proper b ->
  overlaps (prediction_polygon ps i len wid) b = Ok true -> exists z, covers (box_at (nth i ps (0, 0)) (prediction_heading ps i) len wid) z /\ covers b z.
Proof. exact (prediction_sound ps i len wid b). Qed.
Print Assumptions C134_sound.
(** Without contact, boxes overlap exactly when the area of the common part is above a threshold. *)
Theorem C134_exact ps i len wid b V : (2 <= length ps)%nat -> 0 < len -> 0 < wid -> proper b ->
  no_contact (box_polygon (box_at (nth i ps (0, 0)) (prediction_heading ps i) len wid)) (box_polygon b) ->
  convex V -> (forall z, inside V z <-> covers (box_at (nth i ps (0, 0)) (prediction_heading ps i) len wid) z /\ covers b z) ->
  overlaps (prediction_polygon ps i len wid) b = Ok true <-> / 10000000000 < twice_area V.
Proof. exact (prediction_exact ps i len wid b V). Qed.
Print Assumptions C134_exact.
(** With contact an overlap can be missed. *)
Theorem C134_contact_refuted : exists a b, proper a /\ proper b /\ (forall z, covers a z -> covers b z) /\
  overlaps (Some (box_polygon a)) b = Ok false /\ overlaps (Some (box_polygon b)) a = Ok true.
Proof. exact (contact_refuted ). Qed.
Print Assumptions C134_contact_refuted.
(** A trajectory with one position has no box: the test fails exactly when the bounding box of the track has the origin in it. *)
Theorem C134_single ps i len wid b : (length ps < 2)%nat ->
  (overlaps (prediction_polygon ps i len wid) b = Ok false \/ overlaps (prediction_polygon ps i len wid) b = Err RuntimeError) /\
  (overlaps (prediction_polygon ps i len wid) b = Ok false <->
    let c := bounding_box (box_polygon b) in fst (snd c) < 0 \/ 0 < fst (fst c) \/ snd (snd c) < 0 \/ 0 < snd (fst c)).
Proof. exact (single_position ps i len wid b). Qed.
Print Assumptions C134_single.
(** It can fail. *)
Theorem C134_single_refuted : exists b, proper b /\ covers b (0, 0) /\ forall p len wid, overlaps (prediction_polygon [p] 0 len wid) b = Err RuntimeError.
Proof. exact (single_refuted ). Qed.
Print Assumptions C134_single_refuted.

(** A case without contact that overlaps, and one that turns. *)
Example C134_nonvacuous : no_contact (box_polygon (box_at (nth 0 stays_put (0, 0)) (prediction_heading stays_put 0) 4 1)) (box_polygon neighbour) /\
  convex (box_polygon common) /\
  (forall z, inside (box_polygon common) z <-> covers (box_at (nth 0 stays_put (0, 0)) (prediction_heading stays_put 0) 4 1) z /\ covers neighbour z) /\
  overlaps (prediction_polygon stays_put 0 4 1) neighbour = Ok true.
Proof. exact (conj put_no_contact (conj common_convex (conj common_points put_hits))). Qed.
Example C134_nonvacuous_turned : ~ stays (0, 0) (1, 0) /\ ~ stays (1, 0) (1, 1) /\
  forall before after, direction (0, 0) (1, 0) before -> direction (1, 0) (1, 1) after -> ~ opposite after before.
Proof. exact corner_case. Qed.
