(** Proofs about the example submissions of the latency challenge. *)
From Coq Require Import Reals String List Lra Lia.
From Verif Require Import Base ResultLib DemoModel DemoSpec.
Import ListNotations.
Open Scope list_scope.
Open Scope R_scope.

(** * Moving points *)
Lemma vec_eq a b c a' b' c' : a = a' -> b = b' -> c = c' -> Vec a b c = Vec a' b' c'.
Proof. now intros -> -> ->. Qed.
Lemma back_and_forth m v : rows_orthonormal m -> matvec m (matvec (transpose m) v) = v.
Proof.
  destruct m as [[a b c] [d e f] [g h i]], v as [x y z]. unfold rows_orthonormal, orthonormal, scalar, matvec, transpose, dot. cbn [vx vy vz row0 row1 row2].
  intros (H1 & H2 & H3 & H4 & H5 & H6). apply vec_eq.
  - transitivity ((a*a+b*b+c*c)*x + (a*d+b*e+c*f)*y + (a*g+b*h+c*i)*z); [ring|]. rewrite H1, H4, H5. ring.
  - transitivity ((a*d+b*e+c*f)*x + (d*d+e*e+f*f)*y + (d*g+e*h+f*i)*z); [ring|]. rewrite H2, H4, H6. ring.
  - transitivity ((a*g+b*h+c*i)*x + (d*g+e*h+f*i)*y + (g*g+h*h+i*i)*z); [ring|]. rewrite H3, H5, H6. ring.
Qed.
Lemma forth_and_back m v : columns_orthonormal m -> matvec (transpose m) (matvec m v) = v.
Proof.
  destruct m as [[a b c] [d e f] [g h i]], v as [x y z]. unfold columns_orthonormal, orthonormal, scalar, matvec, transpose, dot. cbn [vx vy vz row0 row1 row2].
  intros (H1 & H2 & H3 & H4 & H5 & H6). apply vec_eq.
  - transitivity ((a*a+d*d+g*g)*x + (a*b+d*e+g*h)*y + (a*c+d*f+g*i)*z); [ring|]. rewrite H1, H4, H5. ring.
  - transitivity ((a*b+d*e+g*h)*x + (b*b+e*e+h*h)*y + (b*c+e*f+h*i)*z); [ring|]. rewrite H2, H4, H6. ring.
  - transitivity ((a*c+d*f+g*i)*x + (b*c+e*f+h*i)*y + (c*c+f*f+i*i)*z); [ring|]. rewrite H3, H5, H6. ring.
Qed.
Lemma in_world_value p v : in_world p v = vadd (matvec (rot p) v) (trans p).
Proof. reflexivity. Qed.
Lemma vadd_vsub a b : vadd (vsub a b) b = a.
Proof. destruct a as [a1 a2 a3], b as [b1 b2 b3]. unfold vadd, vsub. cbn [vx vy vz]. apply vec_eq; ring. Qed.
Lemma vsub_vadd a b : vsub (vadd a b) b = a.
Proof. destruct a as [a1 a2 a3], b as [b1 b2 b3]. unfold vadd, vsub. cbn [vx vy vz]. apply vec_eq; ring. Qed.

(** The rows of the newest rotation are orthonormal exactly if every moved point stays where it was in the world. *)
Lemma move_world new : rows_orthonormal (rot new) <-> forall old p, same_measurement old new p (move old new p).
Proof.
  split.
  - intros H old p. unfold same_measurement, move. cbn [range intensity elongation position]. repeat (split; [reflexivity|]).
    rewrite !in_world_value, back_and_forth by exact H. apply vadd_vsub.
  - intros H. destruct new as [[[a b c] [d e f] [g h i]] [tx ty tz]].
    set (id := Pose (Mat (Vec 1 0 0) (Vec 0 1 0) (Vec 0 0 1)) (Vec tx ty tz)).
    pose proof (proj2 (proj2 (proj2 (H id (Point 1 0 0 (Vec 1 0 0)))))) as H1.
    pose proof (proj2 (proj2 (proj2 (H id (Point 1 0 0 (Vec 0 1 0)))))) as H2.
    pose proof (proj2 (proj2 (proj2 (H id (Point 1 0 0 (Vec 0 0 1)))))) as H3.
    unfold in_world, move, id, matvec, transpose, dot, vadd, vsub in H1, H2, H3.
    cbn [vx vy vz row0 row1 row2 rot trans position] in H1, H2, H3.
    injection H1 as H11 H12 H13. injection H2 as H21 H22 H23. injection H3 as H31 H32 H33.
    unfold rows_orthonormal, orthonormal, scalar. cbn [vx vy vz row0 row1 row2 rot].
    repeat split; nra.
Qed.
Lemma move_same p q : columns_orthonormal (rot p) -> move p p q = q.
Proof.
  intros H. unfold move. destruct q as [r i e v]. cbn [range intensity elongation position].
  rewrite vsub_vadd, forth_and_back by exact H. reflexivity.
Qed.
Lemma norm_forth m a b c : columns_orthonormal m -> scalar (matvec m (Vec a b c)) (matvec m (Vec a b c)) = a*a + b*b + c*c.
Proof.
  destruct m as [[m0 m1 m2] [m3 m4 m5] [m6 m7 m8]]. unfold columns_orthonormal, orthonormal, scalar, matvec, dot. cbn [vx vy vz row0 row1 row2].
  intros (H1 & H2 & H3 & H4 & H5 & H6).
  transitivity ((m0*m0+m3*m3+m6*m6)*(a*a) + (m1*m1+m4*m4+m7*m7)*(b*b) + (m2*m2+m5*m5+m8*m8)*(c*c)
    + 2*(m0*m1+m3*m4+m6*m7)*(a*b) + 2*(m0*m2+m3*m5+m6*m8)*(a*c) + 2*(m1*m2+m4*m5+m7*m8)*(b*c)); [ring|].
  rewrite H1, H2, H3, H4, H5, H6. ring.
Qed.
Lemma squared_scalar a b : squared_distance a b = scalar (vsub a b) (vsub a b).
Proof. unfold squared_distance, scalar, vsub. cbn [vx vy vz]. ring. Qed.
Lemma norm_keeps m v : columns_orthonormal m -> scalar (matvec m v) (matvec m v) = scalar v v.
Proof. intros H. destruct v as [a b c]. rewrite norm_forth by exact H. reflexivity. Qed.
Lemma transpose_columns m : rows_orthonormal m -> columns_orthonormal (transpose m).
Proof. destruct m as [[a b c] [d e f] [g h i]]. intros H. exact H. Qed.
Lemma matvec_sub m a b : matvec m (vsub a b) = vsub (matvec m a) (matvec m b).
Proof. destruct a as [a1 a2 a3], b as [b1 b2 b3]. unfold matvec, vsub, dot. cbn [vx vy vz]. apply vec_eq; ring. Qed.
(** Distances within one frame are kept. *)
Lemma move_distance old new p q : columns_orthonormal (rot old) -> rows_orthonormal (rot new) ->
  squared_distance (position (move old new p)) (position (move old new q)) = squared_distance (position p) (position q).
Proof.
  intros Ho Hn. rewrite !squared_scalar. unfold move. cbn [position].
  rewrite <- matvec_sub, norm_keeps by now apply transpose_columns.
  assert (E : vsub (vsub (vadd (matvec (rot old) (position p)) (trans old)) (trans new)) (vsub (vadd (matvec (rot old) (position q)) (trans old)) (trans new))
    = matvec (rot old) (vsub (position p) (position q))).
  { rewrite matvec_sub. unfold vsub, vadd. cbn [vx vy vz]. apply vec_eq; ring. }
  rewrite E. now apply norm_keeps.
Qed.

(** * Reading the frames *)
Lemma positive_iff x : positive x = true <-> 0 < x.
Proof. unfold positive. destruct (Rlt_dec 0 x); split; intros; try congruence; lra. Qed.
Lemma picks_filter {A} (P : A -> Prop) f l : (forall a, f a = true <-> P a) -> forall r, picks P l r <-> r = filter f l.
Proof.
  intros Hf. induction l as [|a l IH]; intros r; cbn [filter].
  - split; [now inversion 1|intros ->; constructor].
  - split.
    + inversion 1 as [|b m s Pb Hs|b m s Pb Hs]; subst.
      * rewrite (proj2 (Hf a) Pb). f_equal. now apply IH.
      * destruct (f a) eqn:E; [exfalso; apply Pb; now apply Hf|now apply IH].
    + intros ->. destruct (f a) eqn:E.
      * constructor; [now apply Hf|now apply IH].
      * constructor; [|now apply IH]. intros C. apply Hf in C. congruence.
Qed.
Lemma visible_returns ri l : visible ri l <-> l = returns ri.
Proof. apply picks_filter. intros p. apply positive_iff. Qed.
Lemma holds_lookup k name v : holds v name k <-> lookup k name = Some v.
Proof.
  induction k as [|[n w] k IH]; cbn [lookup].
  - split; [now inversion 1|discriminate].
  - destruct (String.eqb n name) eqn:E.
    + apply String.eqb_eq in E. subst n. split.
      * inversion 1 as [|n' w' k' Hn Hh]; subst; [reflexivity|congruence].
      * intros [= <-]. constructor.
    + apply String.eqb_neq in E. rewrite <- IH. split.
      * inversion 1 as [|n' w' k' Hn Hh]; subst; [congruence|assumption].
      * intros H. now constructor.
Qed.
Lemma image_of_ok k name ri : image_of k name = Ok ri <-> holds (Image ri) name k.
Proof. rewrite holds_lookup. unfold image_of. destruct (lookup k name) as [[|]|]; split; congruence. Qed.
Lemma pose_of_ok k name p : pose_of k name = Ok p <-> holds (PoseValue p) name k.
Proof. rewrite holds_lookup. unfold pose_of. destruct (lookup k name) as [[|]|]; split; congruence. Qed.

(** The cloud exists exactly if all six arrays are there, and is then the newest returns followed by the moved older ones. *)
Lemma combined_exact k pc : combined_cloud k = Ok pc <->
  exists r0 r1 r2 p0 p1 p2 v0 v1 v2,
    Forall2 (fun v name => holds v name k) [Image r0; Image r1; Image r2; PoseValue p0; PoseValue p1; PoseValue p2] multiframe_fields /\
    visible r0 v0 /\ visible r1 v1 /\ visible r2 v2 /\ pc = v0 ++ map (move p1 p0) v1 ++ map (move p2 p0) v2.
Proof.
  unfold combined_cloud. split.
  - destruct (pose_of k "POSE") as [p0|e] eqn:P0; cbn [bind]; [|discriminate].
    cbn [foldM]. unfold add_frame. cbn [String.append].
    destruct (image_of k "TOP_RANGE_IMAGE_FIRST_RETURN") as [r0|e] eqn:R0; cbn [bind List.app]; [|discriminate].
    destruct (image_of k "TOP_RANGE_IMAGE_FIRST_RETURN_1") as [r1|e] eqn:R1; cbn [bind List.app]; [|discriminate].
    destruct (pose_of k "POSE_1") as [p1|e] eqn:P1; cbn [bind List.app]; [|discriminate].
    destruct (image_of k "TOP_RANGE_IMAGE_FIRST_RETURN_2") as [r2|e] eqn:R2; cbn [bind List.app]; [|discriminate].
    destruct (pose_of k "POSE_2") as [p2|e] eqn:P2; cbn [bind List.app]; [|discriminate].
    intros [= <-]. exists r0, r1, r2, p0, p1, p2, (returns r0), (returns r1), (returns r2).
    rewrite !visible_returns. rewrite image_of_ok in R0, R1, R2. rewrite pose_of_ok in P0, P1, P2.
    split; [unfold multiframe_fields; now repeat constructor|]. repeat (split; [reflexivity|]).
    cbn [concat]. now rewrite app_nil_r.
  - intros (r0 & r1 & r2 & p0 & p1 & p2 & v0 & v1 & v2 & H & V0 & V1 & V2 & ->).
    apply visible_returns in V0, V1, V2. subst v0 v1 v2. unfold multiframe_fields in H.
    inversion H as [|? ? ? ? H0 Ha]; subst. inversion Ha as [|? ? ? ? H1 Hb]; subst. inversion Hb as [|? ? ? ? H2 Hc]; subst.
    inversion Hc as [|? ? ? ? H3 Hd]; subst. inversion Hd as [|? ? ? ? H4 He]; subst. inversion He as [|? ? ? ? H5 Hf]; subst.
    rewrite <- image_of_ok in H0, H1, H2. rewrite <- pose_of_ok in H3, H4, H5.
    rewrite H3. cbn [bind foldM]. unfold add_frame. cbn [String.append].
    rewrite H0. cbn [bind List.app]. rewrite H1. cbn [bind List.app]. rewrite H4. cbn [bind List.app].
    rewrite H2. cbn [bind List.app]. rewrite H5. cbn [bind List.app concat]. now rewrite app_nil_r.
Qed.
(** Nothing but the requested arrays is read. *)
Lemma combined_reads k k' : (forall f, In f multiframe_fields -> lookup k f = lookup k' f) -> combined_cloud k = combined_cloud k'.
Proof.
  intros H. unfold combined_cloud, add_frame, image_of, pose_of. cbn [foldM String.append].
  rewrite !H by (unfold multiframe_fields; cbn [In]; tauto). reflexivity.
Qed.

(** * The heads of the network *)
Lemma softplus_positive x : 0 < softplus x.
Proof. unfold softplus. rewrite <- ln_1. apply ln_increasing; [lra|]. pose proof (exp_pos x). lra. Qed.
Lemma sigmoid_range x : 0 < sigmoid x < 1.
Proof.
  unfold sigmoid. pose proof (exp_pos (- x)) as H. split.
  - apply Rinv_0_lt_compat. lra.
  - rewrite <- Rinv_1. apply Rinv_lt_contravar; lra.
Qed.
Lemma tanh_range x : -1 < tanh x < 1.
Proof.
  unfold tanh, sinh, cosh. pose proof (exp_pos x) as H. pose proof (exp_pos (- x)) as H'.
  replace ((exp x - exp (- x)) / 2 / ((exp x + exp (- x)) / 2)) with ((exp x - exp (- x)) * / (exp x + exp (- x))) by (field; lra).
  assert (I : 0 < / (exp x + exp (- x))) by (apply Rinv_0_lt_compat; lra).
  assert (E : (exp x + exp (- x)) * / (exp x + exp (- x)) = 1) by (apply Rinv_r; lra).
  split; nra.
Qed.
Lemma tanh_alt x : tanh x = 1 - 2 / (exp (2 * x) + 1).
Proof.
  unfold tanh, sinh, cosh. pose proof (exp_pos x) as H. pose proof (exp_pos (- x)) as H'.
  replace (2 * x) with (x + x) by ring. rewrite exp_plus, exp_Ropp. field. repeat split; apply Rgt_not_eq; nra.
Qed.
Lemma tanh_increasing x y : x < y -> tanh x < tanh y.
Proof.
  intros L. rewrite !tanh_alt. pose proof (exp_pos (2 * x)) as H. pose proof (exp_pos (2 * y)) as H'.
  assert (exp (2 * x) < exp (2 * y)) by (apply exp_increasing; lra).
  assert (/ (exp (2 * y) + 1) < / (exp (2 * x) + 1)) by (apply Rinv_lt_contravar; nra). unfold Rdiv. lra.
Qed.
Lemma multiframe_output net k o : run_multiframe net k = Ok o -> exists pc, combined_cloud k = Ok pc /\
  List.length (boxes o) = List.length (net pc) /\ List.length (scores o) = List.length (net pc) /\ List.length (classes o) = List.length (net pc) /\
  Forall (fun b => 0 < blength b /\ 0 < bwidth b /\ 0 < bheight b /\ - PI < heading b < PI) (boxes o) /\
  Forall (fun s => 0 < s < 1) (scores o) /\ Forall (fun c => c = 1%Z) (classes o).
Proof.
  unfold run_multiframe. destruct (combined_cloud k) as [pc|e]; cbn [bind]; [|discriminate].
  intros [= <-]. exists pc. cbn [boxes scores classes]. rewrite !map_length, repeat_length.
  split; [reflexivity|]. split; [reflexivity|]. split; [reflexivity|]. split; [reflexivity|]. split; [|split].
  - apply Forall_map, Forall_forall. intros l _. unfold box_head. cbn [blength bwidth bheight heading].
    pose proof PI_RGT_0. pose proof (tanh_range (l_heading l)). pose proof (softplus_positive (l_length l)).
    pose proof (softplus_positive (l_width l)). pose proof (softplus_positive (l_height l)). repeat split; try assumption; nra.
  - apply Forall_map, Forall_forall. intros l _. apply sigmoid_range.
  - apply Forall_forall. intros c Hc. now apply repeat_spec in Hc.
Qed.
Lemma multiframe_place net k o i l : run_multiframe net k = Ok o -> forall pc, combined_cloud k = Ok pc -> nth_error (net pc) i = Some l ->
  exists b, nth_error (boxes o) i = Some b /\ cx b = l_x l /\ cy b = l_y l /\ cz b = l_z l.
Proof.
  unfold run_multiframe. intros H pc E Hl. rewrite E in H. cbn [bind] in H. injection H as <-. cbn [boxes].
  exists (box_head l). split; [now apply map_nth_error|]. now repeat split.
Qed.
Lemma lidar_fields_exact : List.NoDup lidar_fields /\ forall f, In f lidar_fields <->
  exists n, In n ["FRONT"; "REAR"; "SIDE_LEFT"; "SIDE_RIGHT"; "TOP"]%string /\ f = (n ++ "_RANGE_IMAGE_FIRST_RETURN")%string.
Proof.
  split.
  - unfold lidar_fields, lidar_names. cbn. repeat constructor; cbn; intros H; repeat (destruct H as [H|H]; [discriminate|]); destruct H.
  - intros f. unfold lidar_fields, lidar_names. split.
    + intros H. apply in_map_iff in H as (n & <- & H). exists n. split; [cbn in *; intuition auto|reflexivity].
    + intros (n & H & ->). apply in_map_iff. exists n. split; [reflexivity|]. cbn in *; intuition auto.
Qed.
Lemma predict_error {O} (m : option (list (list vec) * list (list vec) -> O)) ri : predict m ri = Err ValueError <-> m = None.
Proof. unfold predict. destruct m; split; congruence. Qed.
