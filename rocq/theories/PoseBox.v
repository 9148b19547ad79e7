(** The distance from a keypoint to a box. *)
From Coq Require Import Reals Lra Psatz List Arith Lia Bool ZArith.
From Verif Require Import Base GeomModel GeomBase TtcProofs PoseModel PoseSpec PoseReorder.
Import ListNotations.
Open Scope R_scope.

Lemma vec_eq (a b : vec) : vx a = vx b -> vy a = vy b -> vz a = vz b -> a = b.
Proof. destruct a as [[? ?] ?], b as [[? ?] ?]. unfold vx, vy, vz; cbn. now intros -> -> ->. Qed.
Lemma clip_le h x : 0 <= h -> Rabs (clip (- h) h x) <= h.
Proof.
  intros H. unfold clip, Rmax, Rmin. apply Rabs_le. destruct (Rle_dec x h); destruct (Rle_dec _ _); lra.
Qed.
Lemma sq_le_pos a b : 0 <= a -> a <= b -> a * a <= b * b.
Proof. intros A B. apply Rmult_le_compat; lra. Qed.
Lemma sq_opp a b : (a - b) * (a - b) = (b - a) * (b - a).
Proof. ring. Qed.
Lemma clip_near h x y : Rabs y <= h -> (clip (- h) h x - x) * (clip (- h) h x - x) <= (y - x) * (y - x).
Proof.
  intros Y. assert (Y1 : - h <= y <= h) by (unfold Rabs in Y; destruct (Rcase_abs y); lra).
  assert (Sq : 0 <= (y - x) * (y - x)) by apply Rle_0_sqr.
  unfold clip, Rmax, Rmin. destruct (Rle_dec x h) as [A|A]; destruct (Rle_dec _ _) as [B|B].
  all: try (replace ((x - x) * (x - x)) with 0 by ring; exact Sq).
  all: try (apply sq_le_pos; lra).
  all: rewrite (sq_opp _ x), (sq_opp y x); apply sq_le_pos; lra.
Qed.
Definition frame_of (b : box3) (p : vec) : vec :=
  (cos (heading b) * (vx p - cx b) - sin (heading b) * (vy p - cy b),
   sin (heading b) * (vx p - cx b) + cos (heading b) * (vy p - cy b), vz p - cz b).
Lemma apply_to b p : apply_transform (to_box_transform b) p = frame_of b p.
Proof. apply vec_eq; unfold frame_of, apply_transform, to_box_transform, vdot, vx, vy, vz; cbn; ring. Qed.
Lemma cs h : cos h * cos h + sin h * sin h = 1.
Proof. pose proof (sin2_cos2 h) as E. unfold Rsqr in E. lra. Qed.
Lemma apply_back b v : frame_of b (apply_transform (inverse (to_box_transform b)) v) = v.
Proof.
  pose proof (cs (heading b)) as E.
  apply vec_eq; unfold frame_of, apply_transform, inverse, to_box_transform, vdot, vx, vy, vz; cbn; try ring.
  all: set (c := cos (heading b)) in *; set (s := sin (heading b)) in *; destruct v as [[x y] z]; cbn.
  - transitivity ((c * c + s * s) * x + (c * c + s * s - 1) * (c * cx b - s * cy b)); [ring | rewrite E; ring].
  - transitivity ((c * c + s * s) * y + (c * c + s * s - 1) * (s * cx b + c * cy b)); [ring | rewrite E; ring].
Qed.
(** The transform and the inverse of the model are inverse to each other. *)
Lemma apply_forth b p : apply_transform (inverse (to_box_transform b)) (frame_of b p) = p.
Proof.
  pose proof (cs (heading b)) as E.
  apply vec_eq; unfold frame_of, apply_transform, inverse, to_box_transform, vdot, vx, vy, vz; cbn; try ring.
  all: set (c := cos (heading b)) in *; set (s := sin (heading b)) in *; destruct p as [[x y] z]; cbn.
  - transitivity ((c * c + s * s) * x); [ring | rewrite E; ring].
  - transitivity ((c * c + s * s) * y); [ring | rewrite E; ring].
Qed.
Lemma frame_dist b p q : dist3 (frame_of b p) (frame_of b q) = dist3 p q.
Proof.
  pose proof (cs (heading b)) as E. unfold dist3, frame_of, vx, vy, vz. cbn [fst snd]. f_equal.
  set (c := cos (heading b)) in *. set (s := sin (heading b)) in *. destruct p as [[x y] z], q as [[x' y'] z']; cbn [fst snd].
  transitivity ((c * c + s * s) * ((x - x') * (x - x') + (y - y') * (y - y')) + (z - z') * (z - z')); [ring | rewrite E; ring].
Qed.
Lemma frame_in b q : in_box_clockwise b q <->
  Rabs (vx (frame_of b q)) <= sx b / 2 /\ Rabs (vy (frame_of b q)) <= sy b / 2 /\ Rabs (vz (frame_of b q)) <= sz b / 2.
Proof. reflexivity. Qed.
Definition vadd (a b : vec) : vec := (vx a + vx b, vy a + vy b, vz a + vz b).

Definition clipped (b : box3) (p : vec) : vec :=
  let q := frame_of b p in
  (clip (- (sx b / 2)) (sx b / 2) (vx q), clip (- (sy b / 2)) (sy b / 2) (vy q), clip (- (sz b / 2)) (sz b / 2) (vz q)).
Definition nearest (b : box3) (p : vec) : vec := apply_transform (inverse (to_box_transform b)) (clipped b p).
Lemma displacement_eq p b : box_displacement p b = vsub (nearest b p) p.
Proof. unfold box_displacement, nearest, clipped. cbv zeta. now rewrite apply_to. Qed.
Lemma add_back p b : vadd p (box_displacement p b) = nearest b p.
Proof. rewrite displacement_eq. generalize (nearest b p). intros y. apply vec_eq; unfold vadd, vsub, vx, vy, vz; cbn [fst snd]; ring. Qed.
Lemma dist3_sym a b : dist3 a b = dist3 b a.
Proof. unfold dist3. f_equal. ring. Qed.

Theorem displacement_nearest p b : 0 <= sx b -> 0 <= sy b -> 0 <= sz b ->
  let y := vadd p (box_displacement p b) in
  in_box_clockwise b y /\ vnorm (box_displacement p b) = dist3 p y /\
  forall z, in_box_clockwise b z -> dist3 p y <= dist3 p z.
Proof.
  intros HX HY HZ y. unfold y. rewrite add_back. clear y. rewrite displacement_eq.
  assert (F : frame_of b (nearest b p) = clipped b p) by apply apply_back.
  split; [|split].
  - apply frame_in. rewrite F. unfold clipped, vx, vy, vz; cbn [fst snd]. repeat split; apply clip_le; lra.
  - rewrite vnorm_dist. apply dist3_sym.
  - intros z Z. apply frame_in in Z. destruct Z as (Z1 & Z2 & Z3). rewrite <- (frame_dist b p (nearest b p)), <- (frame_dist b p z). rewrite F.
    rewrite (dist3_sym _ (clipped b p)), (dist3_sym _ (frame_of b z)). unfold clipped. cbv zeta.
    set (q := frame_of b p) in *. set (w := frame_of b z) in *.
    pose proof (clip_near _ (vx q) _ Z1) as A. pose proof (clip_near _ (vy q) _ Z2) as B. pose proof (clip_near _ (vz q) _ Z3) as C.
    unfold dist3. apply sqrt_le_1_alt. cbn [fst snd]. repeat apply Rplus_le_compat; assumption.
Qed.
Lemma displacement_within p b d : 0 <= sx b -> 0 <= sy b -> 0 <= sz b ->
  vnorm (box_displacement p b) <= d <-> exists z, in_box_clockwise b z /\ dist3 p z <= d.
Proof.
  intros HX HY HZ. destruct (displacement_nearest p b HX HY HZ) as (I & E & N). rewrite E. split.
  - intros L. eauto.
  - intros (z & Z & L). specialize (N z Z). lra.
Qed.
Lemma displacement_inside p b d : 0 <= sx b -> 0 <= sy b -> 0 <= sz b ->
  vnorm (box_displacement p b) < d <-> exists z, in_box_clockwise b z /\ dist3 p z < d.
Proof.
  intros HX HY HZ. destruct (displacement_nearest p b HX HY HZ) as (I & E & N). rewrite E. split.
  - intros L. eauto.
  - intros (z & Z & L). specialize (N z Z). lra.
Qed.
(** Minimum of the row of a box and a person. *)
Lemma reduce_min_le l d : (match reduce_min l with Some x => rleb x d | None => false end) = true <-> exists x, In (Some x) l /\ x <= d.
Proof.
  induction l as [|a l IH]; cbn [reduce_min fold_right].
  - split; [discriminate | intros (x & [] & _)].
  - fold (reduce_min l). destruct a as [a|]; cbn [min_inf].
    + destruct (reduce_min l) as [m|]; cbn [min_inf].
      * rewrite rleb_iff. rewrite rleb_iff in IH. split.
        -- intros L. unfold Rmin in L. destruct (Rle_dec a m); [exists a; split; [now left | lra]|].
           destruct (proj1 IH L) as (x & I & X). exists x. split; [now right | lra].
        -- intros (x & [I|I] & X).
           ++ injection I as ->. pose proof (Rmin_l x m). lra.
           ++ assert (m <= d) by (apply IH; eauto). pose proof (Rmin_r a m). lra.
      * rewrite rleb_iff. split.
        -- intros L. exists a. split; [now left | lra].
        -- intros (x & [I|I] & X); [injection I as ->; lra|]. exfalso. assert (false = true) by (apply IH; eauto). discriminate.
    + rewrite IH. split; [intros (x & I & X); exists x; split; [now right | auto] | intros (x & [I|I] & X); [discriminate | eauto]].
Qed.
Definition box_ok (b : box3) : Prop := 0 <= sx b /\ 0 <= sy b /\ 0 <= sz b.
Lemma row_In b o x : In (Some x) (keypoint_distance b o) <-> exists k, In k o /\ visible k = true /\ x = vnorm (box_displacement (place k) b).
Proof.
  unfold keypoint_distance. rewrite in_map_iff. split.
  - intros (k & E & I). rewrite vis_eq in E. destruct (visible k) eqn:V; [|discriminate]. injection E as <-. exists k. auto.
  - intros (k & I & V & ->). exists k. rewrite vis_eq, V. auto.
Qed.
Lemma closest_iff d b o : box_ok b ->
  (match reduce_min (keypoint_distance b o) with Some x => rleb x d | None => false end) = true <->
  exists k z, In k o /\ visible k = true /\ in_box_clockwise b z /\ dist3 (place k) z <= d.
Proof.
  intros (HX & HY & HZ). rewrite reduce_min_le. split.
  - intros (x & I & L). apply row_In in I. destruct I as (k & I & V & ->). apply displacement_within in L; auto.
    destruct L as (z & Z & L). exists k, z. auto.
  - intros (k & z & I & V & Z & L). exists (vnorm (box_displacement (place k) b)). split; [apply row_In; eauto|].
    apply displacement_within; eauto.
Qed.
Lemma inside_pos b o : box_ok b ->
  (0 < length (filter (fun d => match d with Some x => rltb x eps_m | None => false end) (keypoint_distance b o)))%nat <->
  exists k z, In k o /\ visible k = true /\ in_box_clockwise b z /\ dist3 (place k) z < / 100000.
Proof.
  intros (HX & HY & HZ). fold eps_m. split.
  - intros L. destruct (filter _ _) as [|d l] eqn:E; [cbn in L; lia|].
    assert (I : In d (filter (fun d => match d with Some x => rltb x eps_m | None => false end) (keypoint_distance b o))) by (rewrite E; now left).
    apply filter_In in I. destruct I as [I F]. destruct d as [x|]; [|discriminate]. apply rltb_iff in F.
    apply row_In in I. destruct I as (k & I & V & ->). apply displacement_inside in F; auto. destruct F as (z & Z & F). exists k, z. auto.
  - intros (k & z & I & V & Z & L).
    assert (J : In (Some (vnorm (box_displacement (place k) b))) (filter (fun d => match d with Some x => rltb x eps_m | None => false end) (keypoint_distance b o))).
    { apply filter_In. split; [apply row_In; eauto|]. apply rltb_iff, displacement_inside; eauto. }
    destruct (filter _ _); [destruct J | cbn; lia].
Qed.
