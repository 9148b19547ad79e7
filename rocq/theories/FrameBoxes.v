(** Boxes in frames: proofs. *)
From Coq Require Import Reals Lra Psatz List Arith Lia Bool.
From Verif Require Import Base ResultLib GeomModel GeomBase FrameModel FrameSpec FrameProofs.
Import ListNotations.
Open Scope R_scope.

(** ** Points in boxes *)
Lemma yaw_det h : det3 (get_yaw_rotation h) = 1.
Proof. unfold det3, get_yaw_rotation, X, Y, Z_. cbn [r0 r1 r2 fst snd]. transitivity (cos h * cos h + sin h * sin h); [ring | apply cs1]. Qed.
Lemma yaw_inverse h : inverse3 (get_yaw_rotation h) = {| r0 := (cos h, sin h, 0); r1 := (- sin h, cos h, 0); r2 := (0, 0, 1) |}.
Proof.
  unfold inverse3. rewrite yaw_det. unfold get_yaw_rotation, X, Y, Z_. cbn [r0 r1 r2 fst snd]. unfold Rdiv. rewrite Rinv_1.
  f_equal; apply vec3_eq; unfold X, Y, Z_; cbn [fst snd]; try ring. rewrite Rmult_1_r. transitivity (cos h * cos h + sin h * sin h); [ring | apply cs1].
Qed.
Definition local (b : box7) (p : vec3) : vec3 :=
  (cos (heading b) * (X p - X (center b)) + sin (heading b) * (Y p - Y (center b)),
   - sin (heading b) * (X p - X (center b)) + cos (heading b) * (Y p - Y (center b)), Z_ p - Z_ (center b)).
Lemma local_point b u v w : local b (point_of b u v w) = (u, v, w).
Proof.
  unfold point_of, local. destruct (center b) as [[x y] z]. pose proof (cs1 (heading b)) as E. set (c := cos (heading b)) in *. set (s := sin (heading b)) in *.
  apply vec3_eq; unfold X, Y, Z_; cbn [fst snd].
  - transitivity ((c * c + s * s) * u); [ring | rewrite E; ring].
  - transitivity ((c * c + s * s) * v); [ring | rewrite E; ring].
  - ring.
Qed.
Lemma point_local b p : point_of b (X (local b p)) (Y (local b p)) (Z_ (local b p)) = p.
Proof.
  unfold point_of, local. destruct (center b) as [[x y] z], p as [[px py] pz]. pose proof (cs1 (heading b)) as E. set (c := cos (heading b)) in *. set (s := sin (heading b)) in *.
  apply vec3_eq; unfold X, Y, Z_; cbn [fst snd].
  - transitivity (x + (c * c + s * s) * (px - x)); [ring | rewrite E; ring].
  - transitivity (y + (c * c + s * s) * (py - y)); [ring | rewrite E; ring].
  - ring.
Qed.
Lemma in_box_local b p : in_box b p <->
  Rabs (X (local b p)) <= X (dim b) / 2 /\ Rabs (Y (local b p)) <= Y (dim b) / 2 /\ Rabs (Z_ (local b p)) <= Z_ (dim b) / 2.
Proof.
  unfold in_box. destruct (dim b) as [[l wd] h]. cbn [X Y Z_ fst snd]. split.
  - intros (u & v & w & A & B & C & ->). rewrite local_point. auto.
  - intros (A & B & C). exists (X (local b p)), (Y (local b p)), (Z_ (local b p)). rewrite point_local. auto.
Qed.
Lemma sided q d : rleb q (d * / 2) && rleb (- d * / 2) q = true <-> Rabs q <= d / 2.
Proof.
  rewrite andb_true_iff, !rleb_iff. split.
  - intros (A & B). apply Rabs_le. lra.
  - intros H. unfold Rabs in H. destruct (Rcase_abs q); lra.
Qed.
Definition insideb (p : vec3) (b : box7) : bool := match within_box p b with Ok v => v | Err _ => false end.
Lemma within_ok p b : within_box p b = Ok (insideb p b).
Proof. unfold insideb, within_box, inverse. rewrite (proj2 (is_zero_false _)); [reflexivity|]. cbn [get_transform rotation]. rewrite yaw_det. lra. Qed.
Lemma inside_iff p b : insideb p b = true <-> solid b /\ in_box b p.
Proof.
  unfold insideb, within_box, inverse. rewrite (proj2 (is_zero_false _)) by (cbn [get_transform rotation]; rewrite yaw_det; lra).
  cbn [bind get_transform rotation translation]. rewrite yaw_inverse.
  assert (Q1 : add3 (mulv {| r0 := (cos (heading b), sin (heading b), 0); r1 := (- sin (heading b), cos (heading b), 0); r2 := (0, 0, 1) |} p)
     (neg3 (mulv {| r0 := (cos (heading b), sin (heading b), 0); r1 := (- sin (heading b), cos (heading b), 0); r2 := (0, 0, 1) |} (center b))) = local b p).
  { unfold local. destruct (center b) as [[? ?] ?], p as [[? ?] ?]. unv. apply vec3_eq; unfold X, Y, Z_; cbn [fst snd]; ring. }
  cbv zeta. rewrite Q1. rewrite in_box_local. unfold solid. destruct (dim b) as [[l wd] h]. cbn [X Y Z_ fst snd].
  change (fst (fst (l, wd, h))) with l. change (snd (fst (l, wd, h))) with wd.
  set (sb := negb (is_zero l) && negb (is_zero wd) && negb (is_zero h)).
  assert (SB : sb = true <-> l <> 0 /\ wd <> 0 /\ h <> 0).
  { unfold sb. rewrite !andb_true_iff, !negb_true_iff, !is_zero_false. tauto. }
  rewrite <- SB. rewrite <- !sided. unfold X, Y, Z_. destruct sb; rewrite ?andb_true_r, ?andb_false_r; cbn [andb].
  - rewrite !andb_true_iff. tauto.
  - split; [discriminate | intros [H _]; discriminate].
Qed.
Lemma within_rows points boxes : is_within_box_3d points boxes = Ok (map (fun p => map (insideb p) boxes) points).
Proof. unfold is_within_box_3d. apply mapM_ok. intros p _. apply mapM_ok. intros b _. apply within_ok. Qed.
Theorem within_3d points boxes : exists rows, is_within_box_3d points boxes = Ok rows /\ length rows = length points /\
  forall i p, nth_error points i = Some p -> exists row, nth_error rows i = Some row /\ length row = length boxes /\
    forall j b, nth_error boxes j = Some b -> exists v, nth_error row j = Some v /\ (v = true <-> solid b /\ in_box b p).
Proof.
  eexists. split; [apply within_rows|]. split; [apply map_length|]. intros i p H. eexists. split; [apply map_nth_error, H|].
  split; [apply map_length|]. intros j b B. eexists. split; [apply map_nth_error, B|]. apply inside_iff.
Qed.
Lemma count_filter (f : nat -> bool) {A} (g : A -> bool) (l : list A) : forall k, (forall i a, nth_error l i = Some a -> f (k + i)%nat = g a) ->
  length (filter g l) = length (filter f (seq k (length l))).
Proof.
  induction l as [|a l IH]; intros k H; auto. cbn [filter length seq].
  assert (K : length (filter g l) = length (filter f (seq (S k) (length l)))) by (apply IH; intros i b B; rewrite Nat.add_succ_comm; apply H, B).
  pose proof (H 0%nat a eq_refl) as E. rewrite Nat.add_0_r in E. rewrite E. destruct (g a); cbn [length]; now rewrite K.
Qed.
Theorem count_3d points boxes : exists counts, compute_num_points_in_box_3d points boxes = Ok counts /\ length counts = length boxes /\
  forall j b, nth_error boxes j = Some b -> exists inside, nth_error counts j = Some (length inside) /\ NoDup inside /\
    forall i, In i inside <-> exists p, nth_error points i = Some p /\ solid b /\ in_box b p.
Proof.
  unfold compute_num_points_in_box_3d. rewrite within_rows. cbn [bind]. eexists. split; [reflexivity|]. split; [now rewrite map_length, seq_length|].
  intros j b B. assert (L : (j < length boxes)%nat) by (apply nth_error_Some; congruence).
  exists (filter (fun i => match nth_error points i with Some p => insideb p b | None => false end) (seq 0 (length points))).
  split; [|split].
  - rewrite (map_nth_error _ j (seq 0 (length boxes)) (d := j)) by (rewrite nth_error_nth' with (d := 0%nat) by (now rewrite seq_length); now rewrite seq_nth).
    f_equal. replace (length points) with (length (map (fun p => map (insideb p) boxes) points)) by apply map_length.
    apply (count_filter (fun i => match nth_error points i with Some p => insideb p b | None => false end)).
    intros i row R. cbn [plus]. rewrite nth_error_map in R. destruct (nth_error points i) as [p|] eqn:P; [|discriminate]. injection R as <-.
    rewrite nth_indep with (d' := insideb p b) by (now rewrite map_length). rewrite map_nth.
    now rewrite (nth_error_nth boxes j b B).
  - apply NoDup_filter, seq_NoDup.
  - intros i. rewrite filter_In, in_seq. split.
    + intros [_ H]. destruct (nth_error points i) as [p|]; [|discriminate]. exists p. split; auto. now apply inside_iff.
    + intros (p & P & H). rewrite P. split; [|now apply inside_iff]. assert (i < length points)%nat by (apply nth_error_Some; congruence). lia.
Qed.

(** ** Two dimensions *)
Definition insideb2 (p : point) (b : box5) : bool := match within_box_2d p b with Ok v => v | Err _ => false end.
Lemma det2_yaw b : det2 {| row_x := (cos (heading2 b), -1 * sin (heading2 b)); row_y := (sin (heading2 b), cos (heading2 b)); shift := center2 b |} = 1.
Proof. unfold det2. cbn [row_x row_y fst snd]. transitivity (cos (heading2 b) * cos (heading2 b) + sin (heading2 b) * sin (heading2 b)); [ring | apply cs1]. Qed.
Lemma within2_ok p b : within_box_2d p b = Ok (insideb2 p b).
Proof. unfold insideb2, within_box_2d, inverse2. rewrite det2_yaw. rewrite (proj2 (is_zero_false 1)) by lra. reflexivity. Qed.
Lemma inside2_iff p b : insideb2 p b = true <-> solid_2d b /\ in_box_2d b p.
Proof.
  unfold insideb2, within_box_2d, inverse2. rewrite det2_yaw. rewrite (proj2 (is_zero_false 1)) by lra. cbn [bind row_x row_y shift fst snd]. cbv zeta.
  unfold dot. cbn [fst snd]. unfold solid_2d. destruct b as [[x y] [l w] h]. cbn [center2 dim2 heading2 fst snd].
  pose proof (cs1 h) as E. set (c := cos h) in *. set (s := sin h) in *.
  set (u := c / 1 * fst p + - (-1 * s) / 1 * snd p + - (c / 1 * x + - (-1 * s) / 1 * y)).
  set (v := - s / 1 * fst p + c / 1 * snd p + - (- s / 1 * x + c / 1 * y)).
  assert (P : in_box_2d {| center2 := (x, y); dim2 := (l, w); heading2 := h |} p <-> Rabs u <= l / 2 /\ Rabs v <= w / 2).
  { unfold in_box_2d. cbn [center2 dim2 heading2 fst snd]. fold c s. split.
    - intros (a & b & A & B & ->). cbn [fst snd] in u, v.
      assert (U : u = a). { unfold u. transitivity ((c * c + s * s) * a); [field | rewrite E; ring]. }
      assert (V : v = b). { unfold v. transitivity ((c * c + s * s) * b); [field | rewrite E; ring]. }
      rewrite U, V. auto.
    - intros (A & B). exists u, v. repeat split; auto. destruct p as [px py]. cbn [fst snd] in u, v. f_equal.
      + unfold u, v. transitivity (x + (c * c + s * s) * (px - x)); [rewrite E; ring | field].
      + unfold u, v. transitivity (y + (c * c + s * s) * (py - y)); [rewrite E; ring | field]. }
  rewrite P. set (sb := negb (is_zero l) && negb (is_zero w)).
  assert (SB : sb = true <-> l <> 0 /\ w <> 0) by (unfold sb; rewrite andb_true_iff, !negb_true_iff, !is_zero_false; tauto).
  rewrite <- SB, <- !sided. destruct sb; rewrite ?andb_true_r, ?andb_false_r; cbn [andb].
  - rewrite !andb_true_iff. tauto.
  - split; [discriminate | intros [H _]; discriminate].
Qed.
Theorem within_2d points boxes : exists rows, is_within_box_2d points boxes = Ok rows /\ length rows = length points /\
  forall i p, nth_error points i = Some p -> exists row, nth_error rows i = Some row /\ length row = length boxes /\
    forall j b, nth_error boxes j = Some b -> exists v, nth_error row j = Some v /\ (v = true <-> solid_2d b /\ in_box_2d b p).
Proof.
  exists (map (fun p => map (insideb2 p) boxes) points). split.
  - unfold is_within_box_2d. apply mapM_ok. intros p _. apply mapM_ok. intros b _. apply within2_ok.
  - split; [apply map_length|]. intros i p H. eexists. split; [apply map_nth_error, H|].
    split; [apply map_length|]. intros j b B. eexists. split; [apply map_nth_error, B|]. apply inside2_iff.
Qed.
Theorem seen_from_above b x y z : in_box b (x, y, z) <->
  in_box_2d (from_above b) (x, y) /\ Rabs (z - snd (center b)) <= snd (dim b) / 2.
Proof.
  unfold in_box, in_box_2d, from_above, point_of. destruct (center b) as [[cx cy] cz]. destruct (dim b) as [[l w] h]. cbn [center2 dim2 heading2 fst snd]. split.
  - intros (u & v & k & A & B & C & E). injection E as -> -> ->. split; [exists u, v; auto|]. replace (cz + k - cz) with k by ring. auto.
  - intros ((u & v & A & B & E) & C). injection E as -> ->. exists u, v, (z - cz). repeat split; auto. f_equal. ring.
Qed.

(** ** Corners *)
Lemma corner_point b u v w : add3 (mulv (get_yaw_rotation (heading b)) (u, v, w)) (center b) = point_of b u v w.
Proof. unfold point_of. destruct (center b) as [[x y] z]. unfold get_yaw_rotation. unv. apply vec3_eq; unfold X, Y, Z_; cbn [fst snd]; ring. Qed.
Theorem corners_list b : get_upright_3d_box_corners b =
  let '(l, w, h) := dim b in
  [point_of b (l / 2) (w / 2) (- h / 2); point_of b (- l / 2) (w / 2) (- h / 2); point_of b (- l / 2) (- w / 2) (- h / 2); point_of b (l / 2) (- w / 2) (- h / 2);
   point_of b (l / 2) (w / 2) (h / 2); point_of b (- l / 2) (w / 2) (h / 2); point_of b (- l / 2) (- w / 2) (h / 2); point_of b (l / 2) (- w / 2) (h / 2)].
Proof.
  unfold get_upright_3d_box_corners. destruct (dim b) as [[l w] h]. unfold X, Y, Z_. cbn [fst snd map]. rewrite !corner_point.
  replace (- (l * / 2)) with (- l / 2) by field. replace (- (w * / 2)) with (- w / 2) by field. replace (- (h * / 2)) with (- h / 2) by field. reflexivity.
Qed.
Lemma weight_bound k a b : 0 < k -> 0 <= a -> 0 <= b -> a + b = 1 -> Rabs (k / 2 * (a - b)) <= k / 2.
Proof.
  intros K A B E. apply Rabs_le. replace b with (1 - a) in * by lra. replace (k / 2 * (a - (1 - a))) with (k * a - k / 2) by field.
  assert (k * a <= k * 1) by (apply Rmult_le_compat_l; lra). assert (0 <= k * a) by (apply Rmult_le_pos; lra). lra.
Qed.
Theorem box_hull b p : sized b -> in_box b p <-> hull (get_upright_3d_box_corners b) p.
Proof.
  rewrite corners_list. unfold sized, in_box, hull. destruct (dim b) as [[l wd] h]. intros (L & W & H). split.
  - intros (u & v & w & A & B & C & ->).
    assert (Au : - (l / 2) <= u <= l / 2) by (unfold Rabs in A; destruct (Rcase_abs u); lra).
    assert (Bv : - (wd / 2) <= v <= wd / 2) by (unfold Rabs in B; destruct (Rcase_abs v); lra).
    assert (Cw : - (h / 2) <= w <= h / 2) by (unfold Rabs in C; destruct (Rcase_abs w); lra).
    assert (Q : forall x k, 0 < k -> - (k / 2) <= x <= k / 2 -> 0 <= / 2 + x / k /\ 0 <= / 2 - x / k).
    { intros x k K X. assert (E : x / k * k = x) by (field; lra). split; apply (Rmult_le_reg_r k); auto; rewrite Rmult_0_l.
      - rewrite Rmult_plus_distr_r, E. lra.
      - rewrite Rmult_minus_distr_r, E. lra. }
    destruct (Q u l L Au) as [a1 a0]. destruct (Q v wd W Bv) as [b1 b0]. destruct (Q w h H Cw) as [c1 c0].
    exists [(/ 2 + u / l) * (/ 2 + v / wd) * (/ 2 - w / h); (/ 2 - u / l) * (/ 2 + v / wd) * (/ 2 - w / h);
       (/ 2 - u / l) * (/ 2 - v / wd) * (/ 2 - w / h); (/ 2 + u / l) * (/ 2 - v / wd) * (/ 2 - w / h);
       (/ 2 + u / l) * (/ 2 + v / wd) * (/ 2 + w / h); (/ 2 - u / l) * (/ 2 + v / wd) * (/ 2 + w / h);
       (/ 2 - u / l) * (/ 2 - v / wd) * (/ 2 + w / h); (/ 2 + u / l) * (/ 2 - v / wd) * (/ 2 + w / h)].
    split; [reflexivity|]. split.
    { intros x I. cbn [In] in I. decompose [or] I; try contradiction; subst x; repeat apply Rmult_le_pos; auto. }
    split; [cbn [total]; field; repeat split; lra|].
    unfold point_of. destruct (center b) as [[x y] z]. cbn [weighted]. apply vec3_eq; unfold X, Y, Z_; cbn [fst snd]; field; repeat split; lra.
  - intros (ws & Lw & N & T & ->). cbn [length] in Lw.
    destruct ws as [|w0 [|w1 [|w2 [|w3 [|w4 [|w5 [|w6 [|w7 [|w8 ws]]]]]]]]]; try discriminate. cbn [total] in T.
    assert (N0 : 0 <= w0) by (apply N; cbn; auto 12). assert (N1 : 0 <= w1) by (apply N; cbn; auto 12). assert (N2 : 0 <= w2) by (apply N; cbn; auto 12).
    assert (N3 : 0 <= w3) by (apply N; cbn; auto 12). assert (N4 : 0 <= w4) by (apply N; cbn; auto 12). assert (N5 : 0 <= w5) by (apply N; cbn; auto 12).
    assert (N6 : 0 <= w6) by (apply N; cbn; auto 10). assert (N7 : 0 <= w7) by (apply N; cbn; auto 12). clear N Lw.
    exists (l / 2 * ((w0 + w3 + w4 + w7) - (w1 + w2 + w5 + w6))), (wd / 2 * ((w0 + w1 + w4 + w5) - (w2 + w3 + w6 + w7))),
           (h / 2 * ((w4 + w5 + w6 + w7) - (w0 + w1 + w2 + w3))).
    repeat split; try (apply weight_bound; lra).
    unfold point_of. destruct (center b) as [[x y] z]. cbn [weighted].
    assert (E : w7 = 1 - w0 - w1 - w2 - w3 - w4 - w5 - w6) by lra. rewrite E.
    apply vec3_eq; unfold X, Y, Z_; cbn [fst snd]; field.
Qed.

(** ** Boxes between frames *)
Theorem transform_box_points b f t : proper (rotation f) -> proper (rotation t) -> level f t ->
  exists b', transform_box b f t = Ok b' /\ dim b' = dim b /\
    forall u v w, transform_point (point_of b u v w) f t = Ok (point_of b' u v w).
Proof.
  intros HF HT L. destruct (level_relative f t HF HT L) as (c & s & E & M).
  unfold transform_box, transform_point, inverse. rewrite (proj2 (is_zero_false _)) by (rewrite proper_det by auto; lra). cbn [bind].
  eexists. split; [reflexivity|]. split; [reflexivity|]. intros u v w. f_equal.
  unfold compose. cbn [rotation translation]. rewrite M. set (tr := add3 _ _).
  unfold X at 1 2. cbn [r0 r1 fst snd]. destruct (atan2_spec s c E) as [C S].
  unfold point_of. cbn [center heading]. rewrite cos_plus, sin_plus, C, S. destruct (center b) as [[x y] z]. clearbody tr. destruct tr as [[tx ty] tz].
  unv. apply vec3_eq; unfold X, Y, Z_; cbn [fst snd]; ring.
Qed.
Theorem transform_box_within b f t b' p q : proper (rotation f) -> proper (rotation t) -> level f t ->
  transform_box b f t = Ok b' -> transform_point p f t = Ok q -> (in_box b p <-> in_box b' q).
Proof.
  intros HF HT L EB EP. destruct (transform_box_points b f t HF HT L) as (b'' & E & D & H). rewrite E in EB. injection EB as ->.
  unfold in_box. rewrite D. destruct (dim b) as [[l wd] h]. split; intros (u & v & w & A & B & C & ->); exists u, v, w; repeat split; auto.
  - rewrite H in EP. now injection EP.
  - pose proof (transform_point_back p f t _ (proper_not_singular _ HF) EP) as Bk.
    pose proof (transform_point_back _ f t _ (proper_not_singular _ HF) (H u v w)) as Bk'. congruence.
Qed.
Theorem transform_box_corners b f t b' : proper (rotation f) -> proper (rotation t) -> level f t -> transform_box b f t = Ok b' ->
  mapM (fun c => transform_point c f t) (get_upright_3d_box_corners b) = Ok (get_upright_3d_box_corners b').
Proof.
  intros HF HT L EB. destruct (transform_box_points b f t HF HT L) as (b'' & E & D & H). rewrite E in EB. injection EB as ->.
  rewrite !corners_list, D. destruct (dim b) as [[l w] h]. cbn [mapM]. rewrite !H. reflexivity.
Qed.
Theorem transform_distance f t p q p' q' : proper (rotation f) -> proper (rotation t) -> transform_point p f t = Ok p' -> transform_point q f t = Ok q' ->
  distance p' q' = distance p q.
Proof.
  intros HF HT EP EQ. apply transform_point_iff in EP, EQ. destruct EP as [_ EP], EQ as [_ EQ].
  assert (W : forall g u v, proper (rotation g) -> distance (world g u) (world g v) = distance u v).
  { intros g u v (A & B & C & D). destruct g as [[[[a0 b0] c0] [[d0 e0] f0] [[g0 h0] i0]] [[x y] z]], u as [[u1 u2] u3], v as [[v1 v2] v3].
    pose proof (proper_z {| r0 := (a0, b0, c0); r1 := (d0, e0, f0); r2 := (g0, h0, i0) |} (conj A (conj B (conj C D)))) as (Z1 & Z2 & Z3).
    unfold inner, axis_x, axis_y, axis_z, outer in *. cbn [rotation r0 r1 r2 fst snd] in *. clear D.
    unfold distance, world. cbn [rotation translation r0 r1 r2]. f_equal.
    set (p1 := u1 - v1). set (p2 := u2 - v2). set (p3 := u3 - v3).
    transitivity (p1 ^ 2 * (a0 * a0 + d0 * d0 + g0 * g0) + p2 ^ 2 * (b0 * b0 + e0 * e0 + h0 * h0) + p3 ^ 2 * (c0 * c0 + f0 * f0 + i0 * i0) +
      2 * p1 * p2 * (a0 * b0 + d0 * e0 + g0 * h0) + 2 * p1 * p3 * (a0 * c0 + d0 * f0 + g0 * i0) + 2 * p2 * p3 * (b0 * c0 + e0 * f0 + h0 * i0)).
    - unfold p1, p2, p3. ring.
    - rewrite A, B, C, Z1, Z2, Z3. ring. }
  rewrite <- (W t p' q' HT), EP, EQ. now apply W.
Qed.
Theorem transform_box_error b f t : singular (rotation t) -> transform_box b f t = Err RuntimeError.
Proof. intros S. apply singular_iff in S. unfold transform_box, inverse. now rewrite (proj2 (is_zero_true _) S). Qed.

(** ** Rotation matrices *)
Theorem rotation_action roll pitch yaw p : mulv (get_rotation_matrix roll pitch yaw) p = about_z yaw (about_y pitch (about_x roll p)).
Proof.
  unfold get_rotation_matrix. cbv zeta. rewrite !mulv_matmul. destruct p as [[x y] z]. unfold about_x, about_y, about_z. unv. apply vec3_eq; unfold X, Y, Z_; cbn [fst snd]; ring.
Qed.
Theorem rotation_yaw yaw : get_rotation_matrix 0 0 yaw = get_yaw_rotation yaw.
Proof.
  unfold get_rotation_matrix, get_yaw_rotation. rewrite cos_0, sin_0. unv. f_equal; apply vec3_eq; unfold X, Y, Z_; cbn [fst snd]; ring.
Qed.
Lemma rotation_explicit roll pitch yaw : let a := cos roll in let b := sin roll in let c := cos pitch in let d := sin pitch in let e := cos yaw in let g := sin yaw in
  get_rotation_matrix roll pitch yaw =
  {| r0 := (e * c, e * d * b - g * a, e * d * a + g * b); r1 := (g * c, g * d * b + e * a, g * d * a - e * b); r2 := (- d, c * b, c * a) |}.
Proof.
  cbv zeta. unfold get_rotation_matrix. unv. f_equal; apply vec3_eq; unfold X, Y, Z_; cbn [fst snd]; ring.
Qed.
Theorem rotation_proper roll pitch yaw : proper (get_rotation_matrix roll pitch yaw).
Proof.
  pose proof (cs1 roll) as A. pose proof (cs1 pitch) as B. pose proof (cs1 yaw) as C. rewrite rotation_explicit.
  generalize dependent (cos roll). intros a. generalize (sin roll). intros b A. generalize dependent (cos pitch). intros c. generalize (sin pitch). intros d B.
  generalize dependent (cos yaw). intros e. generalize (sin yaw). intros g C.
  unfold proper, inner, outer, axis_x, axis_y, axis_z. cbn [r0 r1 r2 fst snd].
  repeat split.
  - transitivity (c * c * (e * e + g * g) + d * d); [ring | rewrite C; lra].
  - transitivity ((d * b) * (d * b) * (e * e + g * g) + a * a * (e * e + g * g) + c * c * (b * b)); [ring | rewrite C].
    transitivity ((c * c + d * d) * (b * b) + a * a); [ring | rewrite B; lra].
  - transitivity (c * d * b * (e * e + g * g - 1)); [ring | rewrite C; ring].
  - apply vec3_eq; unfold X, Y, Z_; cbn [fst snd].
    + transitivity (g * b * (c * c + d * d) + e * a * d); [rewrite B; ring | ring].
    + transitivity (g * d * a - e * b * (c * c + d * d)); [rewrite B; ring | ring].
    + transitivity (c * a * (e * e + g * g)); [rewrite C; ring | ring].
Qed.
Lemma yaw_proper h : proper (get_yaw_rotation h). Proof. rewrite <- rotation_yaw. apply rotation_proper. Qed.

(** ** Frames that are not level *)
Definition upright : pose := {| rotation := get_yaw_rotation 0; translation := (0, 0, 0) |}.
Definition pitched : pose := {| rotation := get_rotation_matrix 0 (PI / 2) 0; translation := (0, 0, 0) |}.
Definition plank : box7 := {| center := (0, 0, 0); dim := (4, 2, 1); heading := 0 |}.
Lemma upright_rotation : get_yaw_rotation 0 = {| r0 := (1, 0, 0); r1 := (0, 1, 0); r2 := (0, 0, 1) |}.
Proof. unfold get_yaw_rotation. rewrite cos_0, sin_0. f_equal. now rewrite Rmult_0_r. Qed.
Lemma pitched_rotation : get_rotation_matrix 0 (PI / 2) 0 = {| r0 := (0, 0, 1); r1 := (0, 1, 0); r2 := (-1, 0, 0) |}.
Proof. rewrite rotation_explicit. rewrite cos_0, sin_0, cos_PI2, sin_PI2. f_equal; apply vec3_eq; unfold X, Y, Z_; cbn [fst snd]; ring. Qed.
Lemma matmul_one m : matmul {| r0 := (1, 0, 0); r1 := (0, 1, 0); r2 := (0, 0, 1) |} m = m.
Proof.
  destruct m as [[[a b] c] [[d e] f] [[g h] i]]. unfold matmul, row_mul, dot3, col0, col1, col2, X, Y, Z_. cbn [r0 r1 r2 fst snd].
  f_equal; apply vec3_eq; unfold X, Y, Z_; cbn [fst snd]; ring.
Qed.
Lemma mulv_zero m : mulv m (0, 0, 0) = (0, 0, 0).
Proof. destruct m as [[[a b] c] [[d e] f] [[g h] i]]. unfold mulv, dot3, X, Y, Z_. cbn [r0 r1 r2 fst snd]. apply vec3_eq; unfold X, Y, Z_; cbn [fst snd]; ring. Qed.
Lemma add_zero v : add3 v (0, 0, 0) = v.
Proof. destruct v as [[a b] c]. unfold add3, X, Y, Z_. cbn [fst snd]. apply vec3_eq; unfold X, Y, Z_; cbn [fst snd]; ring. Qed.
Lemma neg_zero : neg3 (0, 0, 0) = (0, 0, 0).
Proof. unfold neg3, X, Y, Z_. cbn [fst snd]. now rewrite Ropp_0. Qed.
Theorem not_level : exists b f t b' p q, proper (rotation f) /\ proper (rotation t) /\ sized b /\ transform_box b f t = Ok b' /\ transform_point p f t = Ok q /\
  in_box b p /\ ~ in_box b' q.
Proof.
  assert (PU : proper (rotation upright)) by apply yaw_proper.
  exists plank, pitched, upright.
  assert (Q1 : transform_point (2, 0, 0) pitched upright = Ok (0, 0, -2)).
  { apply transform_point_iff. split; [now apply proper_not_singular|]. unfold upright, pitched, world. cbn [rotation translation].
    rewrite upright_rotation, pitched_rotation. cbn [r0 r1 r2]. apply vec3_eq; unfold X, Y, Z_; cbn [fst snd]; ring. }
  assert (Q2 : transform_box plank pitched upright = Ok plank).
  { unfold transform_box, inverse. rewrite (proj2 (is_zero_false _)) by (rewrite proper_det by auto; lra). cbn [bind]. rewrite (proper_inverse _ PU).
    unfold upright, pitched, plank. cbn [rotation translation center dim heading]. rewrite upright_rotation, pitched_rotation.
    change (transpose {| r0 := (1, 0, 0); r1 := (0, 1, 0); r2 := (0, 0, 1) |}) with {| r0 := (1, 0, 0); r1 := (0, 1, 0); r2 := (0, 0, 1) |}.
    unfold compose, apply. cbn [rotation translation]. rewrite matmul_one. rewrite !mulv_zero, neg_zero, !add_zero. unfold X. cbn [r0 r1 fst snd].
    f_equal. f_equal. unfold atan2. rewrite (proj2 (rltb_false 0 0)) by lra. ring. }
  exists plank, (2, 0, 0), (0, 0, -2). split; [apply rotation_proper|]. split; [auto|]. split; [unfold sized, plank; cbn [dim]; lra|]. split; [auto|]. split; [auto|]. split.
  - unfold in_box, plank; cbn [dim]. exists 2, 0, 0. rewrite Rabs_R0. rewrite Rabs_right by lra. repeat split; try lra.
    unfold point_of. cbn [center heading]. rewrite cos_0, sin_0. apply vec3_eq; unfold X, Y, Z_; cbn [fst snd]; ring.
  - unfold in_box, plank; cbn [dim]. intros (u & v & w & _ & _ & C & E). unfold point_of in E. cbn [center heading] in E. injection E as _ _ E.
    unfold Rabs in C. destruct (Rcase_abs w); lra.
Qed.
