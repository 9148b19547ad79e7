(** Cases and refutations about the overlaps of predictions. *)
From Coq Require Import Reals List Arith Lra Lia Bool.
From Verif Require Import LidSpec Base ResultLib GeomModel PolyModel PolySpec PolyBoxSpec HitModel HitSpec.
From Verif Require Import PolyInside PolyMeet PolyMeaning PolyBoxProofs HitProofs.
Import ListNotations.
Open Scope R_scope.

(** A car parked along the street and another one parked in front of the next house, two metres to the right. *)
Definition parked : obox := {| bx := 0; by_ := 0; blength := 4; bwidth := 1; bheading := PI / 2 |}.
Definition neighbour : obox := {| bx := 2; by_ := 0; blength := 4; bwidth := 1; bheading := PI / 2 |}.
Definition common : obox := {| bx := 7 / 4; by_ := 0; blength := 1 / 2; bwidth := 1; bheading := 0 |}.
Definition stays_put : list point := repeat (0, 0) 2.
Lemma predicted_put : box_at (nth 0 stays_put (0, 0)) (prediction_heading stays_put 0) 4 1 = {| bx := 0; by_ := 0; blength := 4; bwidth := 1; bheading := 0 |}.
Proof. unfold box_at, stays_put. rewrite (heading_still (0, 0) 2 0) by lia. reflexivity. Qed.

Lemma abs_le x c : Rabs x <= c <-> - c <= x <= c.
Proof. split; [intro H; split; [pose proof (Rle_abs (- x)); rewrite Rabs_Ropp in *; lra|pose proof (Rle_abs x); lra]|intro H; apply Rabs_le; lra]. Qed.
Lemma upright x z : covers {| bx := x; by_ := 0; blength := 4; bwidth := 1; bheading := PI / 2 |} z <-> -2 <= snd z <= 2 /\ x - 1 / 2 <= fst z <= x + 1 / 2.
Proof. unfold covers, in_rectangle. cbn [bx by_ blength bwidth bheading]. rewrite cos_PI2, sin_PI2, !abs_le. split; intros (A & B); split; lra. Qed.
Lemma lying x l z : covers {| bx := x; by_ := 0; blength := l; bwidth := 1; bheading := 0 |} z <-> x - l / 2 <= fst z <= x + l / 2 /\ - (1 / 2) <= snd z <= 1 / 2.
Proof. unfold covers, in_rectangle. cbn [bx by_ blength bwidth bheading]. rewrite cos_0, sin_0, !abs_le. split; intros (A & B); split; lra. Qed.

Lemma lying_corners : box_polygon {| bx := 0; by_ := 0; blength := 4; bwidth := 1; bheading := 0 |} = [(-2, 1 / 2); (-2, - (1 / 2)); (2, - (1 / 2)); (2, 1 / 2)].
Proof.
  rewrite box_place by (cbn; lra). cbn [bx by_ blength bwidth bheading local map]. unfold place; cbn [fst snd]. rewrite cos_0, sin_0.
  repeat (match goal with |- _ :: _ = _ :: _ => apply f_equal2 end); auto; apply pair_equal_spec; split; lra.
Qed.
Lemma upright_corners : box_polygon neighbour = [(3 / 2, -2); (5 / 2, -2); (5 / 2, 2); (3 / 2, 2)].
Proof.
  rewrite box_place by (cbn; lra). cbn [neighbour bx by_ blength bwidth bheading local map]. unfold place; cbn [fst snd]. rewrite cos_PI2, sin_PI2.
  repeat (match goal with |- _ :: _ = _ :: _ => apply f_equal2 end); auto; apply pair_equal_spec; split; lra.
Qed.
Lemma put_no_contact : no_contact (box_polygon (box_at (nth 0 stays_put (0, 0)) (prediction_heading stays_put 0) 4 1)) (box_polygon neighbour).
Proof.
  rewrite predicted_put, lying_corners, upright_corners. intros i j. unfold corner. cbn [length].
  pose proof (four i) as Hi. pose proof (four j) as Hj. cbv zeta in Hi, Hj.
  change (S (S (S (S O)))) with 4%nat.
  destruct Hi as [(-> & ->)|[(-> & ->)|[(-> & ->)|(-> & ->)]]]; destruct Hj as [(-> & ->)|[(-> & ->)|[(-> & ->)|(-> & ->)]]];
  cbn [nth]; split; intros (t & T & A & B); cbn [fst snd] in *; lra.
Qed.
Lemma common_convex : convex (box_polygon common).
Proof. apply box_convex; cbn; lra. Qed.
Lemma common_points z : inside (box_polygon common) z <-> covers (box_at (nth 0 stays_put (0, 0)) (prediction_heading stays_put 0) 4 1) z /\ covers neighbour z.
Proof.
  rewrite box_inside by (cbn; lra). change (covers common z <-> covers (box_at (nth 0 stays_put (0, 0)) (prediction_heading stays_put 0) 4 1) z /\ covers neighbour z).
  rewrite predicted_put. unfold neighbour, common. rewrite upright, !lying. split; [intros (A & B)|intros ((A & B) & C & D)]; repeat split; lra.
Qed.
Lemma put_hits : overlaps (prediction_polygon stays_put 0 4 1) neighbour = Ok true.
Proof.
  apply (prediction_exact stays_put 0 4 1 neighbour (box_polygon common)); try (cbn; lra); try (cbn; lia).
  - split; cbn; lra.
  - exact put_no_contact.
  - exact common_convex.
  - exact common_points.
  - rewrite box_area by (cbn; lra). cbn [common blength bwidth]. lra.
Qed.
(** The prediction that a parked car stays is right, and the two cars have no point in common; yet it overlaps. *)
Theorem still_refuted : exists car other ps i, proper car /\ proper other /\
  (forall k, (k < length ps)%nat -> nth k ps (0, 0) = (bx car, by_ car)) /\ (i < length ps)%nat /\
  (forall z, covers car z -> covers other z -> False) /\
  overlaps (prediction_polygon ps i (blength car) (bwidth car)) other = Ok true.
Proof.
  exists parked, neighbour, stays_put, 0%nat. split; [split; cbn; lra|]. split; [split; cbn; lra|].
  split; [intros [|[|k]] H; cbn in *; [reflexivity|reflexivity|lia]|]. split; [cbn; lia|]. split; [|exact put_hits].
  intros z A B. unfold parked, neighbour in *. apply upright in A. apply upright in B. lra.
Qed.
(** There and back: going north and returning, the box faces east. *)
Theorem return_east : prediction_heading [(0, 0); (0, 1); (0, 0)] 1 = 0.
Proof.
  destruct (heading_between [(0, 0); (0, 1); (0, 0)] 1 ltac:(lia) ltac:(cbn; lia)) as (_ & b & a & (_ & Hb) & (_ & Ha) & H). cbn [nth Nat.sub Nat.add fst snd] in Ha, Hb.
  destruct H as [(N & _)|(_ & H)]; [|exact H]. exfalso. apply N.
  destruct Ha as [(ra & Pa & Xa & Ya)|(_ & Ya & _)]; [|lra]. destruct Hb as [(rb & Pb & Xb & Yb)|(_ & Yb & _)]; [|lra].
  assert (Ca : cos a = 0) by (apply (Rmult_eq_reg_l ra); lra). assert (Cb : cos b = 0) by (apply (Rmult_eq_reg_l rb); lra).
  pose proof (sin2_cos2 a) as A. pose proof (sin2_cos2 b) as B. unfold Rsqr in A, B. rewrite Ca in A. rewrite Cb in B.
  assert (sin a < 0) by nra. assert (0 < sin b) by nra.
  split; [lra|]. assert ((sin a + sin b) * (sin a - sin b) = 0) by lra. apply Rmult_integral in H1. lra.
Qed.

(** A trajectory with one position has no box: the test reads points that do not exist if the track is at the origin. *)
Lemma bounding_corners P : P <> [] -> forall p, In p P ->
  fst (fst (bounding_box P)) <= fst p <= fst (snd (bounding_box P)) /\ snd (fst (bounding_box P)) <= snd p <= snd (snd (bounding_box P)).
Proof.
  intros N p I. unfold bounding_box. destruct P as [|q l]; [contradiction|]. cbn [hd tl fst snd]. clear N.
  assert (H : forall l m, let a := fold_left (fun m p : point => (Rmin (fst m) (fst p), Rmin (snd m) (snd p))) l m in
    let b := fold_left (fun m p : point => (Rmax (fst m) (fst p), Rmax (snd m) (snd p))) l in
    (fst a <= fst m /\ snd a <= snd m /\ (forall p, In p l -> fst a <= fst p /\ snd a <= snd p)) /\
    (forall m, fst m <= fst (b m) /\ snd m <= snd (b m) /\ (forall p, In p l -> fst p <= fst (b m) /\ snd p <= snd (b m)))).
  { clear. induction l as [|x l IH]; intro m; cbn zeta; cbn [fold_left].
    - split; [|intro m']; (split; [lra|]); (split; [lra|]); intros p [].
    - split.
      + destruct (IH (Rmin (fst m) (fst x), Rmin (snd m) (snd x))) as ((A & B & C) & _). cbn [fst snd] in A, B.
        pose proof (Rmin_l (fst m) (fst x)). pose proof (Rmin_r (fst m) (fst x)). pose proof (Rmin_l (snd m) (snd x)). pose proof (Rmin_r (snd m) (snd x)).
        split; [lra|]. split; [lra|]. intros p [<-|I]; [lra|exact (C p I)].
      + intro m'. destruct (IH (0, 0)) as (_ & D). destruct (D (Rmax (fst m') (fst x), Rmax (snd m') (snd x))) as (A & B & C). cbn [fst snd] in A, B.
        pose proof (Rmax_l (fst m') (fst x)). pose proof (Rmax_r (fst m') (fst x)). pose proof (Rmax_l (snd m') (snd x)). pose proof (Rmax_r (snd m') (snd x)).
        split; [lra|]. split; [lra|]. intros p [<-|I]; [lra|exact (C p I)]. }
  destruct (H l q) as ((A & B & C) & D). destruct (D q) as (A' & B' & C'). destruct I as [<-|I]; [lra|]. specialize (C p I). specialize (C' p I). lra.
Qed.
Theorem single_position ps i len wid b : (length ps < 2)%nat ->
  (overlaps (prediction_polygon ps i len wid) b = Ok false \/ overlaps (prediction_polygon ps i len wid) b = Err RuntimeError) /\
  (overlaps (prediction_polygon ps i len wid) b = Ok false <->
    let c := bounding_box (box_polygon b) in fst (snd c) < 0 \/ 0 < fst (fst c) \/ snd (snd c) < 0 \/ 0 < snd (fst c)).
Proof.
  intro L. unfold prediction_polygon. destruct (Nat.ltb_spec (length ps) 2); [|lia]. unfold overlaps. cbn zeta.
  set (c := bounding_box (box_polygon b)). clearbody c.
  destruct (rltb (fst (snd c)) 0) eqn:A; [apply rltb_true in A|apply rltb_false' in A];
  (destruct (rltb 0 (fst (fst c))) eqn:B; [apply rltb_true in B|apply rltb_false' in B]);
  (destruct (rltb (snd (snd c)) 0) eqn:C; [apply rltb_true in C|apply rltb_false' in C]);
  (destruct (rltb 0 (snd (fst c))) eqn:D; [apply rltb_true in D|apply rltb_false' in D]); cbn [orb];
  (split; [auto|]); (split; [intro X; try discriminate X; tauto|intro X; try reflexivity; exfalso; lra]).
Qed.
Theorem single_refuted : exists b, proper b /\ covers b (0, 0) /\ forall p len wid, overlaps (prediction_polygon [p] 0 len wid) b = Err RuntimeError.
Proof.
  exists parked. split; [split; cbn; lra|]. split; [unfold parked; rewrite upright; cbn [fst snd]; lra|]. intros p len wid.
  destruct (single_position [p] 0 len wid parked ltac:(cbn; lia)) as ([E|E] & H); [|exact E]. exfalso.
  apply H in E. cbn zeta in E.
  assert (Cs : box_polygon parked = [(- (1 / 2), -2); (1 / 2, -2); (1 / 2, 2); (- (1 / 2), 2)]).
  { rewrite box_place by (cbn; lra). cbn [parked bx by_ blength bwidth bheading local map]. unfold place; cbn [fst snd]. rewrite cos_PI2, sin_PI2.
    repeat (match goal with |- _ :: _ = _ :: _ => apply f_equal2 end); auto; apply pair_equal_spec; split; lra. }
  pose proof (bounding_corners (box_polygon parked) ltac:(rewrite Cs; discriminate) (- (1 / 2), -2) ltac:(rewrite Cs; now left)) as X.
  pose proof (bounding_corners (box_polygon parked) ltac:(rewrite Cs; discriminate) (1 / 2, 2) ltac:(rewrite Cs; cbn; tauto)) as Y. cbn [fst snd] in X, Y. lra.
Qed.
(** With contact an overlap can be missed. *)
Theorem contact_refuted : exists a b, proper a /\ proper b /\ (forall z, covers a z -> covers b z) /\
  overlaps (Some (box_polygon a)) b = Ok false /\ overlaps (Some (box_polygon b)) a = Ok true.
Proof.
  destruct iou_asymmetric as (a & b & Ba & Bb & I & E1 & E2). destruct (big_pos a Ba) as (La & Wa). destruct (big_pos b Bb) as (Lb & Wb).
  exists a, b. split; [split; assumption|]. split; [split; assumption|]. split; [exact I|].
  pose proof (box_convex a La Wa) as Ca. pose proof (box_convex b Lb Wb) as Cb.
  assert (Zi : exists z, covers a z /\ covers b z).
  { exists (corner (box_polygon a) 0). assert (H : covers a (corner (box_polygon a) 0)) by (unfold covers; rewrite <- box_inside by assumption; now apply corner_inside).
    split; [exact H|now apply I]. }
  destruct Zi as (z & Za & Zb). unfold covers in Za, Zb. rewrite <- box_inside in Za by assumption. rewrite <- box_inside in Zb by assumption.
  assert (Ta : tiny a = false) by (apply tiny_false; exact Ba). assert (Tb : tiny b = false) by (apply tiny_false; exact Bb).
  cbn [overlaps]. rewrite (maybe_complete _ _ z Ca Cb Za Zb), (maybe_complete _ _ z Cb Ca Zb Za). cbn [andb].
  pose proof (iou_value a b) as V1. pose proof (iou_value b a) as V2. unfold big in Ba, Bb. unfold kMinBoxDim in V1, V2.
  specialize (V1 ltac:(lra) ltac:(lra) ltac:(lra) ltac:(lra)). specialize (V2 ltac:(lra) ltac:(lra) ltac:(lra) ltac:(lra)).
  cbn zeta in V1, V2. destruct V1 as (V1 & U1 & _), V2 as (V2 & U2 & _). rewrite E1 in V1. rewrite E2 in V2. injection V1 as V1. injection V2 as V2.
  assert (A1 : intersection_area (box_polygon a) (box_polygon b) = 0).
  { apply (Rmult_eq_reg_r (/ (blength a * bwidth a + blength b * bwidth b - intersection_area (box_polygon a) (box_polygon b)))).
    - rewrite Rmult_0_l. symmetry. exact V1.
    - apply Rinv_neq_0_compat. lra. }
  assert (A2 : 0 < intersection_area (box_polygon b) (box_polygon a)).
  { assert (E : intersection_area (box_polygon b) (box_polygon a) = 1 / 4 * (blength b * bwidth b + blength a * bwidth a - intersection_area (box_polygon b) (box_polygon a)))
      by (rewrite V2; field; lra). lra. }
  rewrite A1, (proj2 (rltb_false' 0 0)) by lra. rewrite (proj2 (rltb_true 0 _) A2). split; reflexivity.
Qed.
(** A turn to the left. *)
Lemma corner_case : ~ stays (0, 0) (1, 0) /\ ~ stays (1, 0) (1, 1) /\
  forall before after, direction (0, 0) (1, 0) before -> direction (1, 0) (1, 1) after -> ~ opposite after before.
Proof.
  split; [intro E; injection E as E; lra|]. split; [intro E; injection E as E; lra|].
  intros b a (_ & Hb) (_ & Ha) (C & _). cbn [fst snd] in Ha, Hb.
  destruct Ha as [(ra & Pa & Xa & Ya)|(Xa & Ya & _)]; [|lra]. destruct Hb as [(rb & Pb & Xb & Yb)|(Xb & Yb & _)]; [|lra].
  assert (Ca : cos a = 0) by (apply (Rmult_eq_reg_l ra); lra). rewrite Ca in C. assert (cos b = 0) by lra. rewrite H in Xb. lra.
Qed.
