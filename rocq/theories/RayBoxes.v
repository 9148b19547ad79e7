(** Box coordinates, frames, and rays that the test gets wrong. *)
From Coq Require Import Reals Lra Lia Psatz.
From Verif Require Import Base GeomModel GeomBase FrameModel FrameSpec FrameProofs RayModel RaySpec RayProofs.
Open Scope R_scope.

Ltac triple := repeat (apply pair_equal_spec; split).
Ltac coords := unfold add3, neg3, mulv, dot3 in *; unfold X, Y, Z_ in *; cbn [fst snd] in *.

(** ** Turning *)
Lemma rotate_is p a : rotate_points_along_z p a = about_z a p.
Proof. destruct p as [[x y] z]. unfold rotate_points_along_z, about_z. coords. triple; ring. Qed.
Lemma about_add a b p : about_z a (about_z b p) = about_z (a + b) p.
Proof. destruct p as [[x y] z]. unfold about_z. rewrite cos_plus, sin_plus. triple; ring. Qed.
Lemma about_0 p : about_z 0 p = p.
Proof. destruct p as [[x y] z]. unfold about_z. rewrite cos_0, sin_0. triple; ring. Qed.
Lemma about_distance a p q : distance (about_z a p) (about_z a q) = distance p q.
Proof.
  destruct p as [[x y] z], q as [[u v] w]. unfold about_z, distance. f_equal. pose proof (sin2_cos2 a) as H. unfold Rsqr in H.
  replace ((x * cos a - y * sin a - (u * cos a - v * sin a)) ^ 2 + (x * sin a + y * cos a - (u * sin a + v * cos a)) ^ 2 + (z - w) ^ 2)
    with ((sin a * sin a + cos a * cos a) * ((x - u) ^ 2 + (y - v) ^ 2) + (z - w) ^ 2) by ring. rewrite H. ring.
Qed.
Theorem rotate_facts : forall p q a b,
  rotate_points_along_z p a = about_z a p /\
  rotate_points_along_z (rotate_points_along_z p b) a = rotate_points_along_z p (a + b) /\
  rotate_points_along_z p 0 = p /\
  distance (rotate_points_along_z p a) (rotate_points_along_z q a) = distance p q.
Proof. intros. rewrite !rotate_is, about_add, about_0, about_distance. auto. Qed.

(** ** Box coordinates *)
Lemma reverse_is b u v w : transform_points_to_box_coord_reverse (u, v, w) b = point_of b u v w.
Proof.
  unfold transform_points_to_box_coord_reverse, point_of. rewrite rotate_is. unfold about_z. destruct (center b) as [[x y] z]. coords. triple; ring.
Qed.
Lemma add_neg p c : add3 (add3 p (neg3 c)) c = p.
Proof. destruct p as [[x y] z], c as [[u v] w]. coords. triple; ring. Qed.
Lemma neg_add p c : add3 (add3 p c) (neg3 c) = p.
Proof. destruct p as [[x y] z], c as [[u v] w]. coords. triple; ring. Qed.
Lemma reverse_to p b : transform_points_to_box_coord_reverse (transform_points_to_box_coord p b) b = p.
Proof.
  unfold transform_points_to_box_coord_reverse, transform_points_to_box_coord. rewrite !rotate_is, about_add.
  replace (heading b + -1 * heading b) with 0 by ring. rewrite about_0. apply add_neg.
Qed.
Lemma to_reverse p b : transform_points_to_box_coord (transform_points_to_box_coord_reverse p b) b = p.
Proof.
  unfold transform_points_to_box_coord_reverse, transform_points_to_box_coord. rewrite neg_add, !rotate_is, about_add.
  replace (-1 * heading b + heading b) with 0 by ring. apply about_0.
Qed.
Lemma to_box_iff p b u v w : transform_points_to_box_coord p b = (u, v, w) <-> p = point_of b u v w.
Proof.
  rewrite <- reverse_is. split; intros H.
  - now rewrite <- H, reverse_to.
  - now rewrite H, to_reverse.
Qed.
Lemma in_box_iff b p : in_box b p <-> in_centered (dim b) (transform_points_to_box_coord p b).
Proof.
  unfold in_box, in_centered. destruct (dim b) as [[l wd] h]. destruct (transform_points_to_box_coord p b) as [[u v] w] eqn:E. split.
  - intros (u' & v' & w' & A & B & C & H). apply to_box_iff in H. rewrite H in E. injection E as -> -> ->. auto.
  - intros (A & B & C). exists u, v, w. apply to_box_iff in E. auto.
Qed.
Theorem box_coordinates : forall b p q,
  (forall u v w, transform_points_to_box_coord p b = (u, v, w) <-> p = point_of b u v w) /\
  transform_points_to_box_coord_reverse (transform_points_to_box_coord p b) b = p /\
  transform_points_to_box_coord (transform_points_to_box_coord_reverse p b) b = p /\
  distance (transform_points_to_box_coord p b) (transform_points_to_box_coord q b) = distance p q /\
  (in_box b p <-> in_centered (dim b) (transform_points_to_box_coord p b)).
Proof.
  intros b p q. split; [intros; apply to_box_iff|]. split; [apply reverse_to|]. split; [apply to_reverse|]. split; [|apply in_box_iff].
  unfold transform_points_to_box_coord. rewrite !rotate_is, about_distance. destruct p as [[x y] z], q as [[u v] w], (center b) as [[e f] g].
  unfold distance. coords. f_equal. ring.
Qed.

(** ** Directions and rays *)
Lemma ray_to_box b o d t :
  transform_points_to_box_coord (ray_at o d t) b = ray_at (transform_points_to_box_coord o b) (transform_directions_to_box_coord d b) t.
Proof.
  unfold transform_points_to_box_coord, transform_directions_to_box_coord. rewrite !rotate_is.
  destruct o as [[ox oy] oz], d as [[dx dy] dz], (center b) as [[x y] z]. unfold ray_at, about_z. coords. triple; ring.
Qed.
Theorem ray_box_world : forall b o d f t0 t1,
  slanted (transform_directions_to_box_coord d b) ->
  get_ray_box_intersects (transform_points_to_box_coord o b) (transform_directions_to_box_coord d b) (dim b) = (f, t0, t1) ->
  (forall t, in_box b (ray_at o d t) <-> t0 <= t <= t1) /\
  (lengths (dim b) -> (f = true <-> meets_box_ahead b o d)).
Proof.
  intros b o d f t0 t1 N E. destruct (slanted_exact _ _ _ _ _ _ N E) as [I J]. split.
  - intros t. rewrite in_box_iff, ray_to_box. apply I.
  - intros L. rewrite (proj1 (J L)). unfold meets_ahead, meets_box_ahead. split; intros (t & T & H); exists t; (split; [exact T|]).
    + now rewrite in_box_iff, ray_to_box.
    + now rewrite in_box_iff, ray_to_box in H.
Qed.
Theorem frame_facts : forall f p q d t,
  transform_points_to_frame p f = world f p /\
  transform_directions_to_frame d f = minus3 (world f (ray_at p d 1)) (world f p) /\
  world f (ray_at p d t) = ray_at (transform_points_to_frame p f) (transform_directions_to_frame d f) t /\
  (proper (rotation f) -> length3 (transform_directions_to_frame d f) = length3 d /\
     distance (transform_points_to_frame p f) (transform_points_to_frame q f) = distance p q).
Proof.
  intros [m tr] p q d t. destruct m as [[[a b] c] [[e f] g] [[h i] j]]. destruct tr as [[tx ty] tz].
  destruct p as [[x y] z], q as [[x' y'] z'], d as [[u v] w].
  unfold transform_points_to_frame, transform_directions_to_frame, world, minus3, ray_at. cbn [rotation translation r0 r1 r2]. coords. cbn [r0 r1 r2 fst snd].
  split; [triple; ring|]. split; [triple; ring|]. split; [triple; ring|].
  unfold proper, inner, axis_x, axis_y, axis_z, outer. cbn [r0 r1 r2 fst snd]. intros (A & B & C & D).
  apply pair_equal_spec in D. destruct D as [D D3]. apply pair_equal_spec in D. destruct D as [D1 D2].
  assert (K : forall u v w, (a * u + b * v + c * w) ^ 2 + (e * u + f * v + g * w) ^ 2 + (h * u + i * v + j * w) ^ 2 = u ^ 2 + v ^ 2 + w ^ 2).
  { intros u' v' w'.
    assert (ZZ : c * c + g * g + j * j = 1).
    { rewrite D1, D2, D3. transitivity ((a * a + e * e + h * h) * (b * b + f * f + i * i) - (a * b + e * f + h * i) * (a * b + e * f + h * i)); [ring|]. rewrite A, B, C. ring. }
    assert (XZ : a * c + e * g + h * j = 0) by (rewrite D1, D2, D3; ring).
    assert (YZ : b * c + f * g + i * j = 0) by (rewrite D1, D2, D3; ring).
    transitivity ((a * a + e * e + h * h) * u' ^ 2 + (b * b + f * f + i * i) * v' ^ 2 + (c * c + g * g + j * j) * w' ^ 2 +
      2 * u' * v' * (a * b + e * f + h * i) + 2 * u' * w' * (a * c + e * g + h * j) + 2 * v' * w' * (b * c + f * g + i * j)); [ring|].
    rewrite A, B, C, ZZ, XZ, YZ. ring. }
  split.
  - unfold length3. now rewrite K.
  - unfold distance. f_equal. rewrite <- (K (x - x') (y - y') (z - z')). ring.
Qed.

(** ** Rays along the faces, and rays that do not move *)
Lemma margin_val : / 10 ^ 10 * 10 ^ 10 = 1. Proof. field. Qed.
Lemma zero_nudge a : nudge 0 a -> a = / 10 ^ 10.
Proof. intros [[H _]|[_ H]]; [now elim H|exact H]. Qed.
Lemma nudged_y : nudged (0, 1, 0) (/ 10 ^ 10, 1, / 10 ^ 10).
Proof. split; [right; auto|]. split; [left; split; [lra|reflexivity]|right; auto]. Qed.
Lemma nudged_still : nudged (0, 0, 0) (/ 10 ^ 10, / 10 ^ 10, / 10 ^ 10).
Proof. split; [right; auto|]. split; right; auto. Qed.
Lemma unit_lengths : lengths (1, 1, 1). Proof. cbn [lengths]. lra. Qed.
Lemma flag_of o d d' s : nudged d d' -> lengths s -> exists f a b, get_ray_box_intersects o d s = (f, a, b) /\ (f = true <-> meets_ahead s o d').
Proof.
  intros N L. destruct (get_ray_box_intersects o d s) as [[f a] b] eqn:E. exists f, a, b. split; [reflexivity|].
  destruct (intersects_exact o d d' s f a b N E) as [_ J]. apply (J L).
Qed.
Ltac bounds := rewrite !Rabs_le_iff.

(** Along the face at the high end of x, where the ray stays in the box, and along the face at the low end. *)
Theorem face_ray_refuted : exists o o' d s a b a' b',
  (forall t, 3 / 2 <= t <= 5 / 2 -> in_centered s (ray_at o d t) /\ in_centered s (ray_at o' d t)) /\
  get_ray_box_intersects o d s = (false, a, b) /\ get_ray_box_intersects o' d s = (true, a', b').
Proof.
  exists (1 / 2, -2, 0), (- (1 / 2), -2, 0), (0, 1, 0), (1, 1, 1).
  destruct (flag_of (1 / 2, -2, 0) _ _ _ nudged_y unit_lengths) as (f & a & b & E & F).
  destruct (flag_of (- (1 / 2), -2, 0) _ _ _ nudged_y unit_lengths) as (f' & a' & b' & E' & F').
  exists a, b, a', b'. pose proof margin_pos as M. pose proof margin_val as V. split; [|split].
  - intros t T. cbn [in_centered ray_at]. bounds. lra.
  - rewrite E. destruct f; [|reflexivity]. exfalso. destruct (proj1 F eq_refl) as (t & T & H). cbn [in_centered ray_at] in H.
    rewrite !Rabs_le_iff in H. destruct H as (HX & _). nra.
  - rewrite E'. rewrite (proj2 F'); [reflexivity|]. exists 2. split; [lra|]. cbn [in_centered ray_at]. bounds. 
    assert (/ 10 ^ 10 < / 10) by (apply Rinv_lt_contravar; lra). lra.
Qed.
(** A ray that is outside the box everywhere, and one that stays where it is. *)
Theorem outside_flagged_refuted : exists o d s a b,
  (forall t, ~ in_centered s (ray_at o d t)) /\ d <> (0, 0, 0) /\ get_ray_box_intersects o d s = (true, a, b).
Proof.
  exists (- (1 / 2) - / 10 ^ 10, -2, 0), (0, 1, 0), (1, 1, 1).
  destruct (flag_of (- (1 / 2) - / 10 ^ 10, -2, 0) _ _ _ nudged_y unit_lengths) as (f & a & b & E & F).
  exists a, b. pose proof margin_pos as M. split; [|split].
  - intros t. cbn [in_centered ray_at]. rewrite Rabs_le_iff. lra.
  - intros H. apply pair_equal_spec in H. destruct H as [H _]. apply pair_equal_spec in H. lra.
  - rewrite E, (proj2 F); [reflexivity|]. exists 2. split; [lra|]. cbn [in_centered ray_at]. bounds.
    assert (/ 10 ^ 10 < / 10) by (apply Rinv_lt_contravar; lra). lra.
Qed.
Theorem still_ray_refuted : exists o s a b,
  (forall t, ray_at o (0, 0, 0) t = o) /\ ~ in_centered s o /\ get_ray_box_intersects o (0, 0, 0) s = (true, a, b).
Proof.
  exists (-2, -2, -2), (1, 1, 1). destruct (flag_of (-2, -2, -2) _ _ _ nudged_still unit_lengths) as (f & a & b & E & F).
  exists a, b. split; [|split].
  - intros t. unfold ray_at. triple; ring.
  - cbn [in_centered]. rewrite Rabs_le_iff. lra.
  - rewrite E, (proj2 F); [reflexivity|]. exists (2 * 10 ^ 10). split; [lra|]. cbn [in_centered ray_at]. bounds. pose proof margin_val. lra.
Qed.
(** A ray that misses, with both parameters ahead of the origin, and an origin on a face with the first parameter zero. *)
Lemma nudge_one : nudge1 1 = 1. Proof. symmetry. apply nudge_unique, nudge_same. lra. Qed.
Lemma slab_one o s : slab o 1 s = (- s / 2 - o, s / 2 - o).
Proof. rewrite slab_pos by (rewrite nudge_one; lra). rewrite nudge_one. triple; field. Qed.
Theorem missed_positive_refuted : exists o d s a b,
  get_ray_box_intersects o d s = (false, a, b) /\ slanted d /\ lengths s /\ 0 < a /\ 0 < b.
Proof.
  exists (-2, -5, -2), (1, 1, 1), (1, 1, 1), (9 / 2), (5 / 2). split; [|cbn [slanted lengths]; lra].
  unfold get_ray_box_intersects. coords. rewrite !slab_one.
  replace (Rmax (Rmax (- (1) / 2 - -2) (- (1) / 2 - -5)) (- (1) / 2 - -2)) with (9 / 2) by (unfold Rmax; repeat (destruct (Rle_dec _ _)); lra).
  replace (Rmin (Rmin (1 / 2 - -2) (1 / 2 - -5)) (1 / 2 - -2)) with (5 / 2) by (unfold Rmin; repeat (destruct (Rle_dec _ _)); lra).
  rewrite (proj2 (rltb_iff (1 / 2 - -2) (- (1) / 2 - -5))) by lra.
  triple; try reflexivity. repeat (match goal with |- (if ?c then _ else _) = _ => destruct c end; try reflexivity).
Qed.
Theorem face_origin_refuted : exists o d s b, in_centered s o /\ slanted d /\ get_ray_box_intersects o d s = (true, 0, b).
Proof.
  exists (- (1 / 2), 0, 0), (1, 1, 1), (1, 1, 1), (1 / 2). split; [cbn [in_centered]; bounds; lra|]. split; [cbn [slanted]; lra|].
  unfold get_ray_box_intersects. coords. rewrite !slab_one.
  replace (Rmax (- (1) / 2 - - (1 / 2)) (- (1) / 2 - 0)) with 0 by (unfold Rmax; repeat (destruct (Rle_dec _ _)); lra).
  replace (Rmin (1 / 2 - - (1 / 2)) (1 / 2 - 0)) with (1 / 2) by (unfold Rmin; repeat (destruct (Rle_dec _ _)); lra).
  replace (Rmax 0 (- (1) / 2 - 0)) with 0 by (unfold Rmax; repeat (destruct (Rle_dec _ _)); lra).
  replace (Rmin (1 / 2) (1 / 2 - 0)) with (1 / 2) by (unfold Rmin; repeat (destruct (Rle_dec _ _)); lra).
  rewrite !(proj2 (rltb_false _ _)) by lra. rewrite (proj2 (rleb_false _ _)) by lra. reflexivity.
Qed.
