(** Proofs about headings of predictions and overlaps of boxes. *)
From Coq Require Import Reals List Arith Lra Lia Bool.
From Verif Require Import LidSpec Base ResultLib GeomModel PolyModel PolySpec PolyBoxSpec HitModel HitSpec.
From Verif Require Import PolyInside PolyMeet PolyMeaning PolyBoxProofs.
From Verif Require GeomBase LidBeams FrameModel.
Import ListNotations.
Open Scope R_scope.

Lemma rltb_true a b : rltb a b = true <-> a < b.
Proof. apply GeomBase.rltb_iff. Qed.
Lemma rltb_false' a b : rltb a b = false <-> b <= a.
Proof. apply GeomBase.rltb_false. Qed.

Lemma angle_way a b : direction a b (angle (psub b a)).
Proof. unfold direction, angle, psub. cbn [fst snd]. apply LidBeams.atan2_angle. Qed.

Lemma angle_unique x y a b : has_angle x y a -> has_angle x y b -> a = b.
Proof.
  intros (Ra & [(ra & Pa & Xa & Ya)|(Xa & Ya & Ea)]) (Rb & [(rb & Pb & Xb & Yb)|(Xb & Yb & Eb)]).
  - assert (E : ra = rb).
    { assert (ra * ra = rb * rb).
      { pose proof (sin2_cos2 a) as A. pose proof (sin2_cos2 b) as B. unfold Rsqr in *.
        transitivity (x * x + y * y).
        - rewrite Xa, Ya. transitivity (ra * ra * (sin a * sin a + cos a * cos a)); [rewrite A; ring|ring].
        - rewrite Xb, Yb. transitivity (rb * rb * (sin b * sin b + cos b * cos b)); [ring|rewrite B; ring]. }
      nra. }
    subst rb. assert (C : cos a = cos b) by (apply (Rmult_eq_reg_l ra); [congruence|lra]).
    assert (S : sin a = sin b) by (apply (Rmult_eq_reg_l ra); [congruence|lra]).
    assert (H : cos (a - b) = 1).
    { rewrite cos_minus, C, S. pose proof (sin2_cos2 b) as B. unfold Rsqr in B. lra. }
    pose proof (LidBeams.cos_one (a - b) H ltac:(lra)). lra.
  - exfalso. pose proof (sin2_cos2 a) as A. unfold Rsqr in A. subst x y.
    assert (cos a = 0) by (apply (Rmult_eq_reg_l ra); lra). assert (sin a = 0) by (apply (Rmult_eq_reg_l ra); lra). rewrite H, H0 in A. lra.
  - exfalso. pose proof (sin2_cos2 b) as B. unfold Rsqr in B. subst x y.
    assert (cos b = 0) by (apply (Rmult_eq_reg_l rb); lra). assert (sin b = 0) by (apply (Rmult_eq_reg_l rb); lra). rewrite H, H0 in B. lra.
  - congruence.
Qed.

Theorem heading_ends ps : (2 <= length ps)%nat ->
  direction (nth 0 ps (0, 0)) (nth 1 ps (0, 0)) (prediction_heading ps 0) /\
  direction (nth (length ps - 2) ps (0, 0)) (nth (length ps - 1) ps (0, 0)) (prediction_heading ps (length ps - 1)).
Proof.
  intro L. unfold prediction_heading. split.
  - apply angle_way.
  - destruct (Nat.eqb_spec (length ps - 1) 0) as [E|E]; [lia|]. rewrite Nat.eqb_refl.
    replace (length ps - 1 - 1)%nat with (length ps - 2)%nat by lia. apply angle_way.
Qed.

Lemma average_halfway a b : - PI < average_angle a b <= PI /\
  ((~ opposite a b /\ halfway a b (average_angle a b)) \/ (opposite a b /\ average_angle a b = 0)).
Proof.
  unfold average_angle. destruct (LidBeams.atan2_angle (sin a + sin b) (cos a + cos b)) as (Rg & H). split; [exact Rg|].
  set (h := FrameModel.atan2 (sin a + sin b) (cos a + cos b)) in *. clearbody h.
  destruct H as [(rho & P & X & Y)|(X & Y & E)].
  - left. pose proof (sin2_cos2 a) as A. pose proof (sin2_cos2 b) as B. pose proof (sin2_cos2 h) as Hh. unfold Rsqr in *.
    assert (R2 : rho * rho = 2 + 2 * (cos a * cos b + sin a * sin b)).
    { transitivity ((rho * cos h) * (rho * cos h) + (rho * sin h) * (rho * sin h)).
      - transitivity (rho * rho * (sin h * sin h + cos h * cos h)); [rewrite Hh; ring|ring].
      - rewrite <- X, <- Y. lra. }
    split.
    + intros (C & S). rewrite C in X. rewrite S in Y. assert (rho * cos h = 0) by lra. assert (rho * sin h = 0) by lra.
      assert (cos h = 0) by (apply (Rmult_eq_reg_l rho); lra). assert (sin h = 0) by (apply (Rmult_eq_reg_l rho); lra). rewrite H1, H2 in Hh. lra.
    + unfold halfway. rewrite !cos_minus.
      assert (Ea : rho * (cos h * cos a + sin h * sin a) = rho * rho / 2).
      { transitivity ((rho * cos h) * cos a + (rho * sin h) * sin a); [ring|]. rewrite <- X, <- Y, R2. lra. }
      assert (Eb : rho * (cos h * cos b + sin h * sin b) = rho * rho / 2).
      { transitivity ((rho * cos h) * cos b + (rho * sin h) * sin b); [ring|]. rewrite <- X, <- Y, R2. lra. }
      split; [apply (Rmult_eq_reg_l rho); lra|]. nra.
  - right. unfold opposite. split; [split; lra|exact E].
Qed.

Theorem heading_between ps i : (0 < i)%nat -> (i + 1 < length ps)%nat ->
  let h := prediction_heading ps i in - PI < h <= PI /\
  exists before after, direction (nth (i - 1) ps (0, 0)) (nth i ps (0, 0)) before /\ direction (nth i ps (0, 0)) (nth (i + 1) ps (0, 0)) after /\
    ((~ opposite after before /\ halfway after before h) \/ (opposite after before /\ h = 0)).
Proof.
  intros P L h. unfold h, prediction_heading. destruct (Nat.eqb_spec i 0) as [E|E]; [lia|]. destruct (Nat.eqb_spec i (length ps - 1)) as [E'|E']; [lia|].
  cbn zeta. destruct (average_halfway (angle (psub (at_ ps (i + 1)) (at_ ps i))) (angle (psub (at_ ps i) (at_ ps (i - 1))))) as (Rg & H).
  split; [exact Rg|]. eexists. eexists. split; [apply angle_way|]. split; [apply angle_way|]. exact H.
Qed.

(** Moving and turning. *)
Lemma at_map f ps i : (i < length ps)%nat -> at_ (map f ps) i = f (at_ ps i).
Proof. intro L. unfold at_. rewrite (nth_indep _ (0, 0) (f (0, 0))) by (rewrite map_length; exact L). apply map_nth. Qed.
Theorem heading_moved d ps i : (2 <= length ps)%nat -> (i < length ps)%nat ->
  prediction_heading (map (moved d) ps) i = prediction_heading ps i.
Proof.
  intros L I. unfold prediction_heading. rewrite map_length.
  assert (E : forall a b, psub (moved d a) (moved d b) = psub a b) by (intros; unfold psub, moved; cbn [fst snd]; f_equal; ring).
  destruct (Nat.eqb_spec i 0) as [Z|Z]; [rewrite !at_map by lia; now rewrite E|].
  destruct (Nat.eqb_spec i (length ps - 1)) as [Z'|Z']; [rewrite !at_map by lia; now rewrite E|].
  cbn zeta. rewrite !at_map by lia. now rewrite !E.
Qed.
Lemma turned_way t a b : psub (turned t a) (turned t b) = turned t (psub a b).
Proof. unfold psub, turned. cbn [fst snd]. f_equal; ring. Qed.
Lemma turned_angle t v : v <> (0, 0) -> same_direction (angle (turned t v)) (angle v + t).
Proof.
  intro N. unfold angle. destruct (LidBeams.atan2_angle (snd v) (fst v)) as (_ & [(ra & Pa & Xa & Ya)|(Xa & Ya & _)]).
  2: { exfalso. apply N. destruct v. cbn [fst snd] in *. congruence. }
  destruct (LidBeams.atan2_angle (snd (turned t v)) (fst (turned t v))) as (_ & H).
  set (a := FrameModel.atan2 (snd v) (fst v)) in *. set (b := FrameModel.atan2 (snd (turned t v)) (fst (turned t v))) in *. clearbody a b.
  unfold turned in H. cbn [fst snd] in H. rewrite Xa, Ya in H.
  assert (C : cos t * (ra * cos a) - sin t * (ra * sin a) = ra * cos (a + t)) by (rewrite cos_plus; ring).
  assert (S : sin t * (ra * cos a) + cos t * (ra * sin a) = ra * sin (a + t)) by (rewrite sin_plus; ring).
  rewrite C, S in H. pose proof (sin2_cos2 (a + t)) as U. unfold Rsqr in U.
  destruct H as [(rb & Pb & Xb & Yb)|(Xb & Yb & _)].
  - pose proof (sin2_cos2 b) as V. unfold Rsqr in V.
    assert (E : ra * ra = rb * rb).
    { transitivity ((ra * cos (a + t)) * (ra * cos (a + t)) + (ra * sin (a + t)) * (ra * sin (a + t))).
      - transitivity (ra * ra * (sin (a + t) * sin (a + t) + cos (a + t) * cos (a + t))); [rewrite U; ring|ring].
      - rewrite Xb, Yb. transitivity (rb * rb * (sin b * sin b + cos b * cos b)); [ring|rewrite V; ring]. }
    assert (ra = rb) by nra. subst rb. split; apply (Rmult_eq_reg_l ra); lra.
  - exfalso. assert (cos (a + t) = 0) by (apply (Rmult_eq_reg_l ra); lra). assert (sin (a + t) = 0) by (apply (Rmult_eq_reg_l ra); lra).
    rewrite H, H0 in U. lra.
Qed.
Lemma sum_not_zero a b : ~ opposite a b -> (cos a + cos b, sin a + sin b) <> (0, 0).
Proof. intros N E. injection E as C S. apply N. split; lra. Qed.
Lemma average_turned t a b a' b' : ~ opposite a b -> same_direction a' (a + t) -> same_direction b' (b + t) ->
  same_direction (average_angle a' b') (average_angle a b + t).
Proof.
  intros N (Ca & Sa) (Cb & Sb). pose proof (turned_angle t (cos a + cos b, sin a + sin b) (sum_not_zero a b N)) as H.
  unfold angle in H. cbn [fst snd] in H. unfold average_angle. rewrite Ca, Sa, Cb, Sb.
  replace (sin (a + t) + sin (b + t)) with (snd (turned t (cos a + cos b, sin a + sin b)))
    by (unfold turned; cbn [fst snd]; rewrite !sin_plus; ring).
  replace (cos (a + t) + cos (b + t)) with (fst (turned t (cos a + cos b, sin a + sin b)))
    by (unfold turned; cbn [fst snd]; rewrite !cos_plus; ring).
  exact H.
Qed.
Lemma way_not_zero a b : a <> b -> psub b a <> (0, 0).
Proof. intros N E. apply N. destruct a as (x, y), b as (z, w). unfold psub in E. cbn [fst snd] in E. injection E as X Y. f_equal; lra. Qed.
Theorem heading_turned t ps i : (i < length ps)%nat ->
  (forall k, (k + 1 < length ps)%nat -> (k = i \/ k + 1 = i)%nat -> ~ stays (nth k ps (0, 0)) (nth (k + 1) ps (0, 0))) ->
  (forall before after, (0 < i)%nat -> (i + 1 < length ps)%nat -> direction (nth (i - 1) ps (0, 0)) (nth i ps (0, 0)) before ->
    direction (nth i ps (0, 0)) (nth (i + 1) ps (0, 0)) after -> ~ opposite after before) ->
  (2 <= length ps)%nat ->
  same_direction (prediction_heading (map (turned t) ps) i) (prediction_heading ps i + t).
Proof.
  intros I M O L. unfold prediction_heading. rewrite map_length.
  destruct (Nat.eqb_spec i 0) as [Z|Z].
  - subst i. rewrite !at_map by lia. rewrite turned_way. apply turned_angle, way_not_zero. exact (M 0%nat ltac:(lia) ltac:(lia)).
  - assert (Mp : at_ ps (i - 1) <> at_ ps i).
    { pose proof (M (i - 1)%nat ltac:(lia) ltac:(lia)) as X. replace (i - 1 + 1)%nat with i in X by lia. exact X. }
    destruct (Nat.eqb_spec i (length ps - 1)) as [Z'|Z'].
    + rewrite !at_map by lia. rewrite turned_way. now apply turned_angle, way_not_zero.
    + cbn zeta. rewrite !at_map by lia. rewrite !turned_way.
      apply average_turned.
      * apply (O _ _ ltac:(lia) ltac:(lia)); apply angle_way.
      * apply turned_angle, way_not_zero. exact (M i ltac:(lia) ltac:(lia)).
      * now apply turned_angle, way_not_zero.
Qed.

(** A prediction that stays has no heading of its own. *)
Lemma atan2_zero : FrameModel.atan2 0 0 = 0.
Proof. unfold FrameModel.atan2. rewrite !(proj2 (rltb_false' 0 0)) by lra. reflexivity. Qed.
Lemma angle_zero p : angle (psub p p) = 0.
Proof. unfold angle, psub. cbn [fst snd]. rewrite !Rminus_diag_eq by reflexivity. apply atan2_zero. Qed.
Lemma average_zero : average_angle 0 0 = 0.
Proof.
  unfold average_angle. rewrite sin_0, cos_0. unfold FrameModel.atan2. rewrite (proj2 (rltb_true 0 (1 + 1))) by lra.
  replace ((0 + 0) / (1 + 1)) with 0 by field. apply atan_0.
Qed.
Lemma at_repeat p n i : (i < n)%nat -> at_ (repeat p n) i = p.
Proof.
  intro L. unfold at_. assert (I : In (nth i (repeat p n) (0, 0)) (repeat p n)) by (apply nth_In; now rewrite repeat_length).
  now apply repeat_spec in I.
Qed.
Theorem heading_still p n i : (2 <= n)%nat -> (i < n)%nat -> prediction_heading (repeat p n) i = 0.
Proof.
  intros L I. unfold prediction_heading. rewrite repeat_length.
  destruct (Nat.eqb_spec i 0) as [Z|Z]; [rewrite !at_repeat by lia; apply angle_zero|].
  destruct (Nat.eqb_spec i (n - 1)) as [Z'|Z']; [rewrite !at_repeat by lia; apply angle_zero|].
  cbn zeta. rewrite !at_repeat by lia. rewrite angle_zero. apply average_zero.
Qed.

(** Overlaps. *)
Lemma polygon_predicted ps i len wid : (2 <= length ps)%nat -> prediction_polygon ps i len wid = Some (box_polygon (box_at (nth i ps (0, 0)) (prediction_heading ps i) len wid)).
Proof. intro L. unfold prediction_polygon. destruct (Nat.ltb_spec (length ps) 2); [lia|]. reflexivity. Qed.

Lemma overlap_true a b : proper a -> proper b -> overlaps (Some (box_polygon a)) b = Ok true -> exists z, covers a z /\ covers b z.
Proof.
  intros (La & Wa) (Lb & Wb) H. cbn [overlaps] in H. injection H as H. apply andb_true_iff in H. destruct H as (_ & H). apply rltb_true in H.
  pose proof (box_convex a La Wa) as Ca. pose proof (box_convex b Lb Wb) as Cb.
  destruct (empty_decided (intersection_vertices (box_polygon a) (box_polygon b))) as [E|E].
  - unfold intersection_area in H. rewrite E in H. cbn in H. lra.
  - destruct (vertices_exact _ _ Ca Cb E) as (C & I).
    exists (corner (intersection_vertices (box_polygon a) (box_polygon b)) 0).
    unfold covers. rewrite <- !box_inside by assumption. apply I. now apply corner_inside.
Qed.
Lemma overlap_apart a b : proper a -> proper b -> (forall z, covers a z -> covers b z -> False) -> overlaps (Some (box_polygon a)) b = Ok false.
Proof.
  intros Pa Pb N. destruct (overlaps (Some (box_polygon a)) b) as [[|]|e] eqn:E; [|reflexivity|discriminate E].
  destruct (overlap_true a b Pa Pb E) as (z & A & B). destruct (N z A B).
Qed.
Lemma overlap_exact a b V : proper a -> proper b -> no_contact (box_polygon a) (box_polygon b) ->
  convex V -> (forall z, inside V z <-> covers a z /\ covers b z) ->
  overlaps (Some (box_polygon a)) b = Ok true <-> / 10000000000 < twice_area V.
Proof.
  intros (La & Wa) (Lb & Wb) N C I. pose proof (box_convex a La Wa) as Ca. pose proof (box_convex b Lb Wb) as Cb.
  assert (I' : forall z, inside V z <-> inside (box_polygon a) z /\ inside (box_polygon b) z) by (intro z; rewrite !box_inside by assumption; apply I).
  destruct (proj1 (I' (corner V 0)) (corner_inside V 0 C)) as (Ia & Ib).
  pose proof (vertices_found _ _ _ Ca Cb N Ia Ib) as E. pose proof (area_exact _ _ V Ca Cb E C I') as A.
  cbn [overlaps]. rewrite (maybe_complete _ _ _ Ca Cb Ia Ib), A. cbn [andb]. unfold kEpsilon in *.
  destruct (Rle_dec (twice_area V) (/ 10000000000)) as [L|L].
  - split; [|lra]. intro H. injection H as H. apply rltb_true in H. lra.
  - split; [lra|]. intro H. f_equal. apply rltb_true. lra.
Qed.

Theorem prediction_apart ps i len wid b : (2 <= length ps)%nat -> 0 < len -> 0 < wid -> proper b ->
  (forall z, covers (box_at (nth i ps (0, 0)) (prediction_heading ps i) len wid) z -> covers b z -> False) -> overlaps (prediction_polygon ps i len wid) b = Ok false.
Proof. intros L Pl Pw Pb N. rewrite polygon_predicted by exact L. apply overlap_apart; [split; assumption|exact Pb|exact N]. Qed.
Theorem prediction_exact ps i len wid b V : (2 <= length ps)%nat -> 0 < len -> 0 < wid -> proper b ->
  no_contact (box_polygon (box_at (nth i ps (0, 0)) (prediction_heading ps i) len wid)) (box_polygon b) ->
  convex V -> (forall z, inside V z <-> covers (box_at (nth i ps (0, 0)) (prediction_heading ps i) len wid) z /\ covers b z) ->
  overlaps (prediction_polygon ps i len wid) b = Ok true <-> / 10000000000 < twice_area V.
Proof. intros L Pl Pw Pb N C I. rewrite polygon_predicted by exact L. apply overlap_exact; try assumption. split; assumption. Qed.
Theorem prediction_sound ps i len wid b : (2 <= length ps)%nat -> 0 < len -> 0 < wid -> proper b ->
  overlaps (prediction_polygon ps i len wid) b = Ok true -> exists z, covers (box_at (nth i ps (0, 0)) (prediction_heading ps i) len wid) z /\ covers b z.
Proof. intros L Pl Pw Pb. rewrite polygon_predicted by exact L. apply overlap_true; [split; assumption|exact Pb]. Qed.
