(** Angles, beams and the points of pixels. *)
From Coq Require Import Reals Lra Psatz List Arith Lia Bool.
From Verif Require Import Base ResultLib GeomModel GeomBase FrameModel FrameSpec FrameProofs LidModel LidSpec LidImages.
Import ListNotations.
Open Scope R_scope.

(** ** Angles *)
Lemma atan2_scale k y x : 0 < k -> atan2 (k * y) (k * x) = atan2 y x.
Proof.
  intros K.
  assert (P : forall z, rltb 0 (k * z) = rltb 0 z).
  { intros z. destruct (rltb 0 z) eqn:E; [apply rltb_iff in E; apply rltb_iff; now apply Rmult_lt_0_compat | apply rltb_false in E; apply rltb_false; nra]. }
  assert (N : forall z, rltb (k * z) 0 = rltb z 0).
  { intros z. destruct (rltb z 0) eqn:E; [apply rltb_iff in E; apply rltb_iff; nra | apply rltb_false in E; apply rltb_false; nra]. }
  assert (L : rleb 0 (k * y) = rleb 0 y).
  { destruct (rleb 0 y) eqn:E; [apply rleb_iff in E; apply rleb_iff; nra | apply rleb_false in E; apply rleb_false; nra]. }
  unfold atan2. rewrite !P, !N, L. destruct (rltb 0 x) eqn:E.
  - apply rltb_iff in E. replace (k * y / (k * x)) with (y / x) by (field; lra). reflexivity.
  - destruct (rltb x 0) eqn:F; [|reflexivity]. apply rltb_iff in F. replace (k * y / (k * x)) with (y / x) by (field; lra). reflexivity.
Qed.
Lemma atan2_range y x : - PI < atan2 y x <= PI.
Proof.
  pose proof PI_RGT_0 as P. unfold atan2. destruct (rltb 0 x) eqn:A.
  - pose proof (atan_bound (y / x)). lra.
  - apply rltb_false in A. destruct (rltb x 0) eqn:B.
    + apply rltb_iff in B. pose proof (atan_bound (y / x)) as Q. destruct (rleb 0 y) eqn:C.
      * apply rleb_iff in C. split; [lra|]. destruct (Rle_lt_or_eq_dec 0 y C) as [C'|<-].
        -- assert (y / x < 0) by (pose proof (Rinv_lt_0_compat x B); unfold Rdiv; nra).
           pose proof (atan_increasing _ _ H). rewrite atan_0 in H0. lra.
        -- unfold Rdiv. rewrite Rmult_0_l, atan_0. lra.
      * apply rleb_false in C. assert (H : 0 < y / x).
        { unfold Rdiv. replace (y * / x) with ((- y) * / (- x)) by (field; lra). apply Rmult_lt_0_compat; [lra | apply Rinv_0_lt_compat; lra]. }
        pose proof (atan_increasing _ _ H) as G. rewrite atan_0 in G. lra.
    + destruct (rltb 0 y); [lra|]. destruct (rltb y 0); lra.
Qed.
Lemma plane_norm x y : x <> 0 \/ y <> 0 -> 0 < x * x + y * y.
Proof. intros [H|H]; [pose proof (Rsqr_pos_lt x H) | pose proof (Rsqr_pos_lt y H)]; unfold Rsqr in *; nra. Qed.
Theorem atan2_angle y x : has_angle x y (atan2 y x).
Proof.
  split; [apply atan2_range|]. destruct (Req_dec x 0) as [Ex|Ex]; [destruct (Req_dec y 0) as [Ey|Ey]|].
  - right. subst. repeat split. unfold atan2. rewrite !(proj2 (rltb_false 0 0)) by lra. reflexivity.
  - left. assert (P : 0 < x * x + y * y) by (apply plane_norm; now right). exists (sqrt (x * x + y * y)). assert (N : 0 < sqrt (x * x + y * y)) by now apply sqrt_lt_R0.
    pose proof (sqrt_sqrt (x * x + y * y)) as Q. set (n := sqrt (x * x + y * y)) in *. clearbody n.
    rewrite <- (atan2_scale (/ n) y x) by now apply Rinv_0_lt_compat. destruct (atan2_spec (/ n * y) (/ n * x)) as [C S].
    { transitivity ((x * x + y * y) * (/ n * / n)); [ring|]. rewrite <- Q by lra. field; lra. }
    rewrite C, S. split; [exact N|]. split; field; lra.
  - left. assert (P : 0 < x * x + y * y) by (apply plane_norm; now left). exists (sqrt (x * x + y * y)). assert (N : 0 < sqrt (x * x + y * y)) by now apply sqrt_lt_R0.
    pose proof (sqrt_sqrt (x * x + y * y)) as Q. set (n := sqrt (x * x + y * y)) in *. clearbody n.
    rewrite <- (atan2_scale (/ n) y x) by now apply Rinv_0_lt_compat. destruct (atan2_spec (/ n * y) (/ n * x)) as [C S].
    { transitivity ((x * x + y * y) * (/ n * / n)); [ring|]. rewrite <- Q by lra. field; lra. }
    rewrite C, S. split; [exact N|]. split; field; lra.
Qed.
Lemma cos_one t : cos t = 1 -> - (2 * PI) < t < 2 * PI -> t = 0.
Proof.
  intros E B. pose proof PI_RGT_0 as P. assert (S : sin (t / 2) = 0).
  { pose proof (cos_2a (t / 2)) as D. replace (2 * (t / 2)) with t in D by field. pose proof (cs1 (t / 2)). assert (Q : sin (t / 2) * sin (t / 2) = 0) by lra.
    apply Rmult_integral in Q. tauto. }
  destruct (Rtotal_order t 0) as [L|[Z|G]]; [|exact Z|].
  - pose proof (sin_gt_0 (- (t / 2))) as H. rewrite sin_neg in H. assert (0 < - sin (t / 2)) by (apply H; lra). lra.
  - pose proof (sin_gt_0 (t / 2)) as H. assert (0 < sin (t / 2)) by (apply H; lra). lra.
Qed.
Lemma same_angle a b : cos a = cos b -> sin a = sin b -> - (2 * PI) < a - b < 2 * PI -> a = b.
Proof.
  intros C S B. assert (E : a - b = 0); [|lra]. apply cos_one; [|exact B]. rewrite cos_minus, C, S. apply cs1.
Qed.
Lemma polar_unique rho rho' a b : 0 < rho -> 0 < rho' -> rho * cos a = rho' * cos b -> rho * sin a = rho' * sin b ->
  rho = rho' /\ cos a = cos b /\ sin a = sin b.
Proof.
  intros P P' C S. assert (E : rho = rho').
  { assert (Q : rho * rho = rho' * rho').
    { transitivity ((rho * cos a) * (rho * cos a) + (rho * sin a) * (rho * sin a)); [transitivity (rho * rho * (cos a * cos a + sin a * sin a)); [rewrite cs1; ring | ring]|].
      rewrite C, S. transitivity (rho' * rho' * (cos b * cos b + sin b * sin b)); [ring | rewrite cs1; ring]. }
    assert (Z : (rho - rho') * (rho + rho') = 0) by lra. apply Rmult_integral in Z. destruct Z; lra. }
  subst rho'. split; [reflexivity|]. split; apply (Rmult_eq_reg_l rho); auto; lra.
Qed.
Theorem angle_unique x y a b : has_angle x y a -> has_angle x y b -> a = b.
Proof.
  intros [Ra A] [Rb B]. destruct A as [(u & U & Ax & Ay)|(Ax & Ay & ->)], B as [(v & V & Bx & By)|(Bx & By & ->)].
  - destruct (polar_unique u v a b) as (_ & C & S); try lra. apply same_angle; auto. lra.
  - exfalso. pose proof (cs1 a). assert (cos a = 0) by (apply (Rmult_eq_reg_l u); lra). assert (sin a = 0) by (apply (Rmult_eq_reg_l u); lra). nra.
  - exfalso. pose proof (cs1 b). assert (cos b = 0) by (apply (Rmult_eq_reg_l v); lra). assert (sin b = 0) by (apply (Rmult_eq_reg_l v); lra). nra.
  - reflexivity.
Qed.
Lemma angle_turn x y a psi : (exists rho, 0 < rho /\ x = rho * cos psi /\ y = rho * sin psi) -> has_angle x y a -> cos a = cos psi /\ sin a = sin psi.
Proof.
  intros (u & U & Ux & Uy) [_ [(v & V & Vx & Vy)|(Vx & Vy & ->)]].
  - destruct (polar_unique u v psi a) as (_ & C & S); lra.
  - exfalso. pose proof (cs1 psi). assert (cos psi = 0) by (apply (Rmult_eq_reg_l u); lra). assert (sin psi = 0) by (apply (Rmult_eq_reg_l u); lra). nra.
Qed.

(** ** Beams *)
Lemma correction_angle e : has_angle (X (r0 (rotation e))) (X (r1 (rotation e))) (az_correction e).
Proof. apply atan2_angle. Qed.
Theorem mounted_exists e : mounted e (az_correction e).
Proof.
  destruct (correction_angle e) as [_ [(rho & P & A & B)|(A & B & C)]]; [left; now exists rho | right; split; [now split | exact C]].
Qed.
Lemma mounted_correction e psi : mounted e psi -> cos (az_correction e) = cos psi /\ sin (az_correction e) = sin psi.
Proof.
  intros [F|[[A B] ->]].
  - apply (angle_turn (X (r0 (rotation e))) (X (r1 (rotation e)))); [exact F | apply correction_angle].
  - pose proof (correction_angle e) as [_ [(rho & P & C & D)|(_ & _ & ->)]]; [|auto].
    rewrite A in C. rewrite B in D. exfalso. pose proof (cs1 (az_correction e)).
    assert (cos (az_correction e) = 0) by (apply (Rmult_eq_reg_l rho); lra). assert (sin (az_correction e) = 0) by (apply (Rmult_eq_reg_l rho); lra). nra.
Qed.
Lemma azimuth_bearing e w c : (c < w)%nat -> azimuth e w c = bearing w c - az_correction e.
Proof.
  intros H. unfold azimuth, bearing. rewrite minus_INR by lia. assert (P : 0 < INR w) by (apply lt_0_INR; lia). field. lra.
Qed.
Lemma sensor_point_beam e psi w c i x : (c < w)%nat -> mounted e psi -> sensor_point (azimuth e w c, i, x) = beam psi w c i x.
Proof.
  intros H M. destruct (mounted_correction e psi M) as [C S]. rewrite azimuth_bearing by exact H. unfold sensor_point, beam, times, direction.
  rewrite !cos_minus, !sin_minus, C, S. f_equal; [f_equal|]; ring.
Qed.

(** ** compute_range_image_polar *)
Lemma polar_spec ri e incl polar : compute_range_image_polar ri e incl = Ok polar ->
  length incl = length ri /\ same_shape ri polar /\
  forall r c x i row, nth_error ri r = Some row -> nth_error incl r = Some i -> nth_error row c = Some x -> pixel_at polar r c = Some (azimuth e (length row) c, i, x).
Proof.
  unfold compute_range_image_polar. intros E. apply zip_ok in E. destruct E as (L & M & N). split; [exact L|]. split.
  - apply same_shape_nth. split; [lia|]. intros k x y Hx Hy. destruct (nth_error incl k) as [i|] eqn:Hi.
    + rewrite (N k i x Hi Hx) in Hy. injection Hy as <-. now rewrite map_length, number_length.
    + apply nth_error_None in Hi. assert (k < length ri)%nat by (apply nth_error_Some; congruence). lia.
  - intros r c x i row Hr Hi Hc. unfold pixel_at. rewrite (N r i row Hi Hr), nth_error_map, number_nth, Hc. reflexivity.
Qed.
Lemma polar_exists ri e incl : length incl = length ri -> exists polar, compute_range_image_polar ri e incl = Ok polar.
Proof. intros L. unfold compute_range_image_polar. now apply zip_exists. Qed.
Lemma polar_error ri e incl : length incl <> length ri -> compute_range_image_polar ri e incl = Err ValueError.
Proof. intros L. unfold compute_range_image_polar. now apply zip_error. Qed.

(** ** extract_point_cloud_from_range_image *)
Lemma shape_none {A B} (a : list (list A)) (b : list (list B)) r c : same_shape a b -> pixel_at a r c = None -> pixel_at b r c = None.
Proof. intros F. apply (proj1 (same_shape_pixel a b F r c)). Qed.
Lemma shape_some {A B} (a : list (list A)) (b : list (list B)) r c x : same_shape a b -> pixel_at a r c = Some x -> exists y, pixel_at b r c = Some y.
Proof. intros F E. destruct (pixel_at b r c) eqn:G; [eauto|]. apply (same_shape_pixel a b F) in G. congruence. Qed.

(** The points in the vehicle frame of their pixels. *)
Lemma placed_spec ri e incl polar w psi : rectangle w ri -> mounted e psi -> compute_range_image_polar ri e incl = Ok polar ->
  let pts := map (map (fun p => apply e (sensor_point p))) polar in
  same_shape ri pts /\ forall r c x i, nth_error incl r = Some i -> pixel_at ri r c = Some x -> pixel_at pts r c = Some (beam_end e psi w c i x).
Proof.
  intros W M E pts. destruct (polar_spec _ _ _ _ E) as (L & S & P). split.
  - eapply same_shape_trans; [exact S | apply same_shape_map].
  - intros r c x i Hi Hx. unfold pts. rewrite pixel_map. pose proof Hx as Hx'. unfold pixel_at in Hx'. destruct (nth_error ri r) as [row|] eqn:Hr; [|discriminate].
    rewrite (P r c x i row Hr Hi Hx'). cbn [option_map].
    assert (Lr : length row = w) by exact (proj1 (Forall_forall _ _) W row (nth_error_In _ _ Hr)).
    assert (Hc : (c < w)%nat) by (rewrite <- Lr; apply nth_error_Some; congruence).
    rewrite Lr. unfold beam_end. now rewrite (sensor_point_beam e psi), world_apply by assumption.
Qed.
Theorem extract_plain ri e incl fp w psi : rectangle w ri -> mounted e psi ->
  (forall pts, extract_point_cloud ri e incl None fp = Ok pts ->
     length incl = length ri /\ same_shape ri pts /\
     forall r c x i, nth_error incl r = Some i -> pixel_at ri r c = Some x -> pixel_at pts r c = Some (beam_end e psi w c i x)) /\
  ((exists pts, extract_point_cloud ri e incl None fp = Ok pts) <-> length incl = length ri).
Proof.
  intros W M. unfold extract_point_cloud. split.
  - intros pts E. destruct (compute_range_image_polar ri e incl) as [polar|] eqn:P; [|discriminate]. cbn [bind] in E. unfold compute_range_image_cartesian in E.
    apply Ok_inj in E. subst pts. split; [apply (polar_spec _ _ _ _ P)|]. exact (placed_spec _ _ _ _ _ _ W M P).
  - split.
    + intros [pts E]. destruct (compute_range_image_polar ri e incl) as [polar|] eqn:P; [|discriminate]. apply (polar_spec _ _ _ _ P).
    + intros L. destruct (polar_exists ri e incl L) as [polar ->]. cbn. eauto.
Qed.
Theorem extract_posed ri e incl poses f w psi : rectangle w ri -> mounted e psi ->
  (forall pts, extract_point_cloud ri e incl (Some poses) (Some f) = Ok pts ->
     same_shape ri pts /\
     forall r c x i t, nth_error incl r = Some i -> pixel_at ri r c = Some x -> pixel_at poses r c = Some t ->
       exists p, pixel_at pts r c = Some p /\ world f p = world t (beam_end e psi w c i x) /\
         forall q, world f q = world t (beam_end e psi w c i x) -> q = p) /\
  ((exists pts, extract_point_cloud ri e incl (Some poses) (Some f) = Ok pts) <->
   length incl = length ri /\ same_shape poses ri /\ ~ singular (rotation f)).
Proof.
  intros W M. unfold extract_point_cloud. split.
  - intros pts E. destruct (compute_range_image_polar ri e incl) as [polar|] eqn:P; [|discriminate]. cbn [bind] in E. unfold compute_range_image_cartesian in E.
    destruct (placed_spec _ _ _ _ _ _ W M P) as [S Q]. cbv zeta in E. set (placed := map (map (fun p => apply e (sensor_point p))) polar) in *.
    destruct (zip_image apply poses placed) as [g|] eqn:Z; [|discriminate]. cbn [bind] in E. apply zip_image_spec in Z. destruct Z as (Z1 & Z2 & Z3).
    destruct (is_zero (det3 (rotation f))) eqn:D; [unfold inverse in E; rewrite D in E; discriminate|]. apply is_zero_false in D.
    destruct (inverse_spec f D) as (v & V & V1 & V2). rewrite V in E. cbn [bind] in E. apply Ok_inj in E. subst pts. split.
    + eapply same_shape_trans; [|apply same_shape_map]. eapply same_shape_trans; [exact S|]. eapply same_shape_trans; [apply same_shape_sym; exact Z1 | exact Z2].
    + intros r c x i t Hi Hx Ht. rewrite pixel_map, Z3, Ht, (Q r c x i Hi Hx). cbn [both option_map]. eexists. split; [reflexivity|].
      rewrite !world_apply, V2. split; [reflexivity|]. intros q Hq. rewrite !world_apply in Hq. rewrite <- (V1 q), Hq. reflexivity.
  - split.
    + intros [pts E]. destruct (compute_range_image_polar ri e incl) as [polar|] eqn:P; [|discriminate]. cbn [bind] in E. unfold compute_range_image_cartesian in E.
      destruct (placed_spec _ _ _ _ _ _ W M P) as [S Q]. cbv zeta in E. set (placed := map (map (fun p => apply e (sensor_point p))) polar) in *.
      destruct (zip_image apply poses placed) as [g|] eqn:Z; [|discriminate]. cbn [bind] in E. apply zip_image_spec in Z. destruct Z as (Z1 & Z2 & Z3).
      split; [apply (polar_spec _ _ _ _ P)|]. split; [eapply same_shape_trans; [exact Z1 | apply same_shape_sym; exact S]|].
      rewrite singular_iff. unfold inverse in E. destruct (is_zero (det3 (rotation f))) eqn:D; [discriminate|]. now apply is_zero_false.
    + intros (L & S & N). destruct (polar_exists ri e incl L) as [polar P]. rewrite P. cbn [bind]. unfold compute_range_image_cartesian.
      destruct (placed_spec _ _ _ _ _ _ W M P) as [S' Q]. destruct (zip_image_exists apply poses (map (map (fun p => apply e (sensor_point p))) polar)) as [g Z].
      { eapply same_shape_trans; [exact S | exact S']. }
      rewrite Z. cbn [bind]. rewrite singular_iff in N. destruct (inverse_spec f N) as (v & -> & _). cbn. eauto.
Qed.
Theorem extract_unposed_frame ri e incl poses : length incl = length ri -> extract_point_cloud ri e incl (Some poses) None = Err ValueError.
Proof.
  intros L. unfold extract_point_cloud. destruct (polar_exists ri e incl L) as [polar ->]. cbn [bind]. unfold compute_range_image_cartesian.
  set (placed := map (map (fun p => apply e (sensor_point p))) polar). destruct (zip_image apply poses placed) as [g|x] eqn:Z; [reflexivity|]. cbn [bind].
  destruct x; try reflexivity; exfalso;
  (assert (N : ~ same_shape poses placed) by (intros F; destruct (zip_image_exists apply poses placed F) as [g G]; rewrite G in Z; discriminate);
   rewrite (zip_image_error apply poses placed N) in Z; discriminate).
Qed.

(** ** What the points are *)
Lemma beam_norm psi w c i x : dot3 (beam psi w c i x) (beam psi w c i x) = x * x.
Proof.
  unfold dot3, beam, times, direction, X, Y, Z_. cbn [fst snd]. set (a := bearing w c - psi).
  transitivity (x * x * ((cos a * cos a + sin a * sin a) * (cos i * cos i) + sin i * sin i)); [ring|]. rewrite cs1, Rmult_1_l, cs1. ring.
Qed.
Lemma proper_dot m v : proper m -> dot3 (mulv m v) (mulv m v) = dot3 v v.
Proof.
  intros H. destruct (proper_z m H) as (Z1 & Z2 & Z3). destruct H as (A & B & C & _). destruct v as [[p q] r].
  transitivity (p * p * inner (axis_x m) (axis_x m) + q * q * inner (axis_y m) (axis_y m) + r * r * inner (axis_z m) (axis_z m) +
     2 * p * q * inner (axis_x m) (axis_y m) + 2 * p * r * inner (axis_x m) (axis_z m) + 2 * q * r * inner (axis_y m) (axis_z m)).
  - clear. destruct m as [[[a b] c] [[d e] f] [[g h] i]]. unfold inner, axis_x, axis_y, axis_z. unv. ring.
  - rewrite A, B, C, Z1, Z2, Z3. unfold dot3, X, Y, Z_. cbn [fst snd]. ring.
Qed.
Theorem beam_distance e psi w c i x : proper (rotation e) -> square_distance (beam_end e psi w c i x) (translation e) = x * x.
Proof.
  intros H. unfold beam_end. rewrite world_apply. rewrite <- (beam_norm psi w c i x), <- (proper_dot (rotation e)) by exact H.
  unfold apply. generalize (mulv (rotation e) (beam psi w c i x)) as u. intros [[u v] q]. destruct (translation e) as [[a b] d].
  unfold square_distance, add3, dot3, X, Y, Z_. cbn [fst snd]. ring.
Qed.
Lemma yaw_mounted t psi : mounted {| rotation := get_yaw_rotation psi; translation := t |} psi.
Proof. left. exists 1. unfold get_yaw_rotation, X. cbn [rotation r0 r1 fst snd]. repeat split; lra. Qed.
(** A level lidar looks in the same directions whichever way it is turned. *)
Theorem beam_level t psi w c i x : beam_end {| rotation := get_yaw_rotation psi; translation := t |} psi w c i x = add3 (times x (direction (bearing w c) i)) t.
Proof.
  unfold beam_end. rewrite world_apply. unfold apply. cbn [rotation translation]. f_equal. unfold beam, times, direction.
  set (b := bearing w c). rewrite cos_minus, sin_minus.
  apply vec3_eq; unfold mulv, get_yaw_rotation, dot3, X, Y, Z_; cbn [r0 r1 r2 fst snd].
  - transitivity (x * cos b * cos i * (cos psi * cos psi + sin psi * sin psi)); [ring | rewrite cs1; ring].
  - transitivity (x * sin b * cos i * (cos psi * cos psi + sin psi * sin psi)); [ring | rewrite cs1; ring].
  - ring.
Qed.
(** If the vehicle stood still the poses change nothing. *)
Theorem extract_still ri e incl poses f pts w : rectangle w ri -> extract_point_cloud ri e incl None None = Ok pts ->
  same_shape poses ri -> (forall r c t, pixel_at poses r c = Some t -> t = f) -> ~ singular (rotation f) ->
  extract_point_cloud ri e incl (Some poses) (Some f) = Ok pts.
Proof.
  intros W E S A N. pose proof (mounted_exists e) as M. destruct (extract_plain ri e incl None w (az_correction e) W M) as [P _].
  destruct (P pts E) as (L & S' & P'). destruct (extract_posed ri e incl poses f w (az_correction e) W M) as [Q [_ Q']].
  destruct (Q' (conj L (conj S N))) as [pts' E']. transitivity (Ok pts'); [exact E'|]. f_equal. destruct (Q pts' E') as [S'' P'']. apply pixel_ext.
  - eapply same_shape_trans; [apply same_shape_sym; exact S'' | exact S'].
  - intros r c. destruct (pixel_at ri r c) as [x|] eqn:Hx; [|rewrite (shape_none _ _ r c S'' Hx); symmetry; exact (shape_none _ _ r c S' Hx)].
    assert (Hi : exists i, nth_error incl r = Some i).
    { destruct (nth_error incl r) eqn:F; [eauto|]. apply nth_error_None in F. unfold pixel_at in Hx. destruct (nth_error ri r) eqn:G; [|discriminate].
      assert (r < length ri)%nat by (apply nth_error_Some; congruence). lia. }
    destruct Hi as [i Hi]. destruct (shape_some _ _ r c x (same_shape_sym _ _ S) Hx) as [t Ht]. pose proof (A r c t Ht) as ->.
    destruct (P'' r c x i f Hi Hx Ht) as (p & Hp & _ & U). rewrite Hp, (P' r c x i Hi Hx). f_equal. symmetry. now apply U.
Qed.
