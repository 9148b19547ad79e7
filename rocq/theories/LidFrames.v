(** From frames to points. *)
From Coq Require Import Reals Lra List Arith ZArith Lia Bool Permutation.
From Verif Require Import Base ResultLib GeomModel GeomBase FrameModel FrameSpec FrameProofs LidModel LidSpec LidImages LidBeams LidParse.
Import ListNotations.
Open Scope R_scope.

(** ** Inclinations of the rows *)
Lemma nth_error_rev {A} (l : list A) r : nth_error (rev l) r = if (r <? length l)%nat then nth_error l (length l - 1 - r) else None.
Proof.
  destruct (Nat.ltb_spec r (length l)) as [H|H].
  - destruct l as [|d l']; [cbn in H; lia|]. set (l := d :: l') in *. rewrite (nth_error_nth' (rev l) d) by (rewrite rev_length; lia).
    rewrite rev_nth by exact H. symmetry. replace (length l - 1 - r)%nat with (length l - S r)%nat by lia. apply nth_error_nth'. lia.
  - apply nth_error_None. rewrite rev_length. lia.
Qed.
Lemma uniform_nth lo hi h k : nth_error (compute_inclination lo hi h) k = if (k <? h)%nat then Some ((/ 2 + INR k) / INR h * (hi - lo) + lo) else None.
Proof.
  unfold compute_inclination. rewrite nth_error_map. destruct (Nat.ltb_spec k h) as [H|H].
  - rewrite (nth_error_nth' (seq 0 h) 0%nat) by (rewrite seq_length; lia). rewrite seq_nth by lia. reflexivity.
  - replace (nth_error (seq 0 h) k) with (@None nat); [reflexivity|]. symmetry. apply nth_error_None. rewrite seq_length. lia.
Qed.
Lemma uniform_length lo hi h : length (compute_inclination lo hi h) = h.
Proof. unfold compute_inclination. now rewrite map_length, seq_length. Qed.
Lemma row_inclinations_length c h : length (row_inclinations c h) = match beam_inclinations c with [] => h | l => length l end.
Proof.
  unfold row_inclinations. rewrite rev_length. destruct (beam_inclinations c); [|reflexivity]. unfold compute_inclination. now rewrite map_length, seq_length.
Qed.
Theorem row_inclinations_nth c h r i : nth_error (row_inclinations c h) r = Some i <-> (r < length (row_inclinations c h))%nat /\ row_inclination c h r i.
Proof.
  rewrite row_inclinations_length. unfold row_inclinations, row_inclination. rewrite nth_error_rev. destruct (beam_inclinations c) as [|b bs].
  - rewrite uniform_length. destruct (Nat.ltb_spec r h) as [H|H]; [|split; [discriminate | lia]].
    rewrite uniform_nth. destruct (Nat.ltb_spec (h - 1 - r) h); [|lia].
    assert (E : (/ 2 + INR (h - 1 - r)) / INR h * (beam_inclination_max c - beam_inclination_min c) + beam_inclination_min c =
      beam_inclination_max c - (INR r + / 2) * (beam_inclination_max c - beam_inclination_min c) / INR h).
    { assert (P : 0 < INR h) by (apply lt_0_INR; lia). rewrite !minus_INR by lia. cbn [INR]. field. lra. }
    rewrite E. split; [intros F; injection F as <-; auto | intros [_ ->]; reflexivity].
  - set (l := b :: bs). destruct (Nat.ltb_spec r (length l)) as [H|H].
    + split.
      * intros E. split; [exact H|]. exists (length l - 1 - r)%nat. split; [lia | exact E].
      * intros (_ & k & K & E). now replace (length l - 1 - r)%nat with k by lia.
    + split; [discriminate|]. intros [F _]. lia.
Qed.
Theorem uniform_inclinations lo hi h : lo <= hi ->
  length (compute_inclination lo hi h) = h /\
  (forall k x, nth_error (compute_inclination lo hi h) k = Some x -> lo <= x <= hi /\ x - lo = (2 * INR k + 1) * ((hi - lo) / (2 * INR h))) /\
  (lo < hi -> forall j k x y, (j < k)%nat -> nth_error (compute_inclination lo hi h) j = Some x -> nth_error (compute_inclination lo hi h) k = Some y -> x < y).
Proof.
  intros L. split; [unfold compute_inclination; now rewrite map_length, seq_length|].
  assert (N : forall k x, nth_error (compute_inclination lo hi h) k = Some x -> (k < h)%nat /\ x = (/ 2 + INR k) / INR h * (hi - lo) + lo).
  { intros k x. rewrite uniform_nth. destruct (Nat.ltb_spec k h); [|discriminate]. intros E. injection E as <-. auto. }
  split.
  - intros k x E. destruct (N k x E) as [H ->]. assert (P : 0 < INR h) by (apply lt_0_INR; lia). pose proof (pos_INR k) as K.
    assert (K1 : INR k + 1 <= INR h) by (rewrite <- S_INR; apply le_INR; lia).
    set (u := (/ 2 + INR k) / INR h). assert (U : 0 <= u <= 1).
    { unfold u, Rdiv. assert (0 < / INR h) by now apply Rinv_0_lt_compat. split; [apply Rmult_le_pos; lra|].
      rewrite <- (Rinv_r (INR h)) by lra. apply Rmult_le_compat_r; lra. }
    split; [nra|]. unfold u. field. lra.
  - intros S j k x y J Ex Ey. destruct (N j x Ex) as [Hj ->]. destruct (N k y Ey) as [Hk ->]. assert (P : 0 < INR h) by (apply lt_0_INR; lia).
    apply Rplus_lt_compat_r, Rmult_lt_compat_r; [lra|]. apply Rmult_lt_compat_r; [now apply Rinv_0_lt_compat|]. apply lt_INR in J. lra.
Qed.

(** ** Poses of the pixels *)
Lemma pixel_transform_ok v t : pixel_transform v = Ok t -> forall p, moved v p (world t p).
Proof.
  unfold pixel_transform. destruct v as [|a [|b [|c [|x [|y [|z [|]]]]]]]; try discriminate. intros E p. apply Ok_inj in E. subst t.
  exists a, b, c, x, y, z. split; [reflexivity|]. destruct p as [[px py] pz].
  unfold world, get_transform, get_rotation_matrix, matmul, row_mul, dot3, col0, col1, col2, X, Y, Z_, turn_x, turn_y, turn_z. cbn [rotation translation r0 r1 r2 fst snd].
  f_equal; [f_equal|]; ring.
Qed.
Lemma moved_unique v p q q' : moved v p q -> moved v p q' -> q = q'.
Proof. intros (a & b & c & x & y & z & -> & ->) (a' & b' & c' & x' & y' & z' & E & ->). injection E as <- <- <- <- <- <-. reflexivity. Qed.
Lemma pixel_transform_exists v : (exists t, pixel_transform v = Ok t) <-> length v = 6%nat.
Proof.
  unfold pixel_transform. destruct v as [|a [|b [|c [|x [|y [|z [|]]]]]]]; cbn [length]; split; try (intros [t E]; discriminate); try discriminate; try lia; eauto.
Qed.

(** ** One lidar *)
Lemma channel0_spec t ranges : channel0 t = Ok ranges -> same_shape t ranges /\ forall r c x, pixel_at ranges r c = Some x <-> exists v, pixel_at t r c = Some v /\ hd_error v = Some x.
Proof.
  unfold channel0. intros E. apply mapM_image in E. destruct E as [S P]. split; [exact S|]. intros r c x. split.
  - intros H. destruct (shape_some _ _ r c x (same_shape_sym _ _ S) H) as [v Hv]. exists v. split; [exact Hv|]. destruct (P r c v Hv) as (u & F & G).
    destruct v as [|y v]; [discriminate|]. apply Ok_inj in F. cbn. congruence.
  - intros (v & Hv & Hx). destruct (P r c v Hv) as (u & F & G). destruct v as [|y v]; [discriminate|]. apply Ok_inj in F. cbn in Hx. congruence.
Qed.
Lemma rectangle_shape {A B} w (a : list (list A)) (b : list (list B)) : same_shape a b -> rectangle w a -> rectangle w b.
Proof. intros F. unfold rectangle. induction F; intros R; constructor; inversion R; subst; [congruence | auto]. Qed.
Lemma rectangle_pixel {A} w (t : list (list A)) r c : rectangle w t -> (r < length t)%nat -> (c < w)%nat -> exists v, pixel_at t r c = Some v.
Proof.
  intros R H Hc. unfold pixel_at. destruct (nth_error t r) as [row|] eqn:E; [|apply nth_error_None in E; lia].
  assert (L : length row = w) by exact (proj1 (Forall_forall _ _) R row (nth_error_In _ _ E)).
  destruct (nth_error row c) eqn:F; [eauto|]. apply nth_error_None in F. lia.
Qed.
Lemma pixel_bounds {A} w (t : list (list A)) r c v : rectangle w t -> pixel_at t r c = Some v -> (r < length t)%nat /\ (c < w)%nat.
Proof.
  intros R H. unfold pixel_at in H. destruct (nth_error t r) as [row|] eqn:E; [|discriminate].
  assert (L : length row = w) by exact (proj1 (Forall_forall _ _) R row (nth_error_In _ _ E)).
  split; [apply nth_error_Some; congruence|]. rewrite <- L. apply nth_error_Some. congruence.
Qed.
Lemma channels_length {A} (m : matrix A) h w d r c v : well_formed m h w d -> channels m r c v -> length v = d.
Proof. intros [D _] (h' & w' & d' & [D' _] & _ & _ & L & _). rewrite D in D'. injection D' as <- <- <-. exact L. Qed.
Lemma well_formed_unique {A} (m : matrix A) h w d h' w' d' : well_formed m h w d -> well_formed m h' w' d' -> h = h' /\ w = w' /\ d = d'.
Proof. intros [D _] [D' _]. rewrite D in D'. now injection D' as <- <- <-. Qed.

Definition height_of (c : calibration) (ri : matrix R) : result nat :=
  match beam_inclinations c, dims ri with [], [] => Err IndexError | [], h :: _ => Ok h | _, _ => Ok 0%nat end.
Lemma height_inclinations c ri h w d n : well_formed ri h w d -> height_of c ri = Ok n -> row_inclinations c n = row_inclinations c h.
Proof.
  intros [D _]. unfold height_of, row_inclinations. rewrite D. destruct (beam_inclinations c); [|reflexivity]. intros E. apply Ok_inj in E. now subst.
Qed.
Lemma height_exists c ri h w d : well_formed ri h w d -> exists n, height_of c ri = Ok n.
Proof. intros [D _]. unfold height_of. rewrite D. destruct (beam_inclinations c); eauto. Qed.

(** The poses of the top lidar. *)
Definition posed (top_pose : matrix R) (poses : image pose) : Prop := exists t, tensor top_pose = Ok t /\ pixel_transforms t = Ok poses.
Lemma posed_pixel top_pose poses : posed top_pose poses ->
  exists h w d, well_formed top_pose h w d /\ length poses = h /\ rectangle w poses /\
    forall r c t, pixel_at poses r c = Some t -> exists v, channels top_pose r c v /\ forall p, moved v p (world t p).
Proof.
  intros (t & T & P). apply tensor_ok in T. destruct T as (h & w & d & W & L & R & Q). unfold pixel_transforms in P. apply mapM_image in P. destruct P as [S P].
  exists h, w, d. split; [exact W|]. split; [rewrite <- L; symmetry; apply same_shape_nth in S; tauto|]. split; [exact (rectangle_shape _ _ _ S R)|].
  intros r c u Hu. destruct (shape_some _ _ r c u (same_shape_sym _ _ S) Hu) as [v Hv]. exists v. split; [now apply Q|].
  destruct (P r c v Hv) as (u' & E & H). replace u with u' by congruence. now apply pixel_transform_ok.
Qed.
Theorem posed_exists top_pose : (exists poses, posed top_pose poses) <-> pose_image top_pose.
Proof.
  split.
  - intros (poses & t & T & P). pose proof T as T'. apply tensor_ok in T. destruct T as (h & w & d & W & L & R & Q). exists h, w, d. split; [exact W|].
    intros Hh Hw. destruct (rectangle_pixel w t 0 0 R) as [v Hv]; [lia | exact Hw|]. unfold pixel_transforms in P. apply mapM_image in P. destruct P as [_ P].
    destruct (P 0%nat 0%nat v Hv) as (u & E & _). apply Q in Hv. rewrite <- (channels_length _ _ _ _ _ _ _ W Hv). apply pixel_transform_exists. eauto.
  - intros (h & w & d & W & H). destruct (tensor_exists _ _ _ _ W) as [t T]. pose proof T as T'. apply tensor_ok in T'. destruct T' as (h' & w' & d' & W' & L & R & Q).
    destruct (well_formed_unique _ _ _ _ _ _ _ W W') as (<- & <- & <-). destruct (mapM_image_exists pixel_transform t) as [poses P].
    { intros r c v Hv. destruct (pixel_bounds _ _ _ _ _ R Hv) as [B1 B2]. apply pixel_transform_exists. apply Q in Hv. rewrite (channels_length _ _ _ _ _ _ _ W Hv). apply H; lia. }
    exists poses, t. split; [exact T | exact P].
Qed.

Lemma with_features_spec keep t cart img : with_features keep t cart = Ok img -> same_shape t cart /\ same_shape t img /\
  forall r c, pixel_at img r c = both (fun v p => (if keep then firstn 3 v else []) ++ [X p; Y p; Z_ p]) (pixel_at t r c) (pixel_at cart r c).
Proof.
  unfold with_features. intros E. apply zip_image_spec in E. destruct E as (A & B & C). split; [exact A|]. split; [exact B|]. intros r c. rewrite C.
  destruct (pixel_at t r c), (pixel_at cart r c); try reflexivity. cbn [both]. f_equal. destruct keep; reflexivity.
Qed.
Theorem lidar_cartesian_spec f top_pose poses c ri keep img : posed top_pose poses -> lidar_cartesian f poses c ri keep = Ok img ->
  fits f top_pose c ri /\ (forall r col, (exists out, pixel_at img r col = Some out) <-> exists v, channels ri r col v) /\
  forall r col out, pixel_at img r col = Some out -> lidar_pixel f top_pose c ri keep r col out.
Proof.
  intros PP E. unfold lidar_cartesian in E. change (match beam_inclinations c, dims ri with [], [] => Err IndexError | [], h :: _ => Ok h | _, _ => Ok 0%nat end) with (height_of c ri) in E.
  destruct (height_of c ri) as [n|] eqn:Hn; [|discriminate]. cbn [bind] in E. destruct (tensor ri) as [t|] eqn:T; [|discriminate]. cbn [bind] in E.
  destruct (channel0 t) as [ranges|] eqn:C; [|discriminate]. cbn [bind] in E.
  destruct (extract_point_cloud ranges (calib_extrinsic c) (row_inclinations c n) _ _) as [cart|] eqn:X0; [|discriminate]. cbn [bind] in E.
  apply with_features_spec in E. destruct E as (F1 & F2 & F3). apply tensor_ok in T. destruct T as (h & w & d & W & L & R & Q).
  apply channel0_spec in C. destruct C as [C1 C2]. rewrite (height_inclinations _ _ _ _ _ _ W Hn) in X0. pose proof (rectangle_shape _ _ _ C1 R) as R'.
  pose proof (mounted_exists (calib_extrinsic c)) as M. set (psi := az_correction (calib_extrinsic c)) in *.
  assert (Lr : length ranges = h) by (rewrite <- L; symmetry; apply same_shape_nth in C1; tauto).
  assert (Ll : length (row_inclinations c h) = length ranges /\ (calib_name c = TOP -> same_shape poses ranges /\ ~ singular (rotation (vehicle_pose f)))).
  { destruct (Z.eqb_spec (calib_name c) TOP) as [N|N].
    - destruct (extract_posed ranges _ (row_inclinations c h) poses (vehicle_pose f) w psi R' M) as [_ [D _]]. destruct D as (D1 & D2 & D3); [eauto|]. split; [exact D1 | auto].
    - destruct (extract_plain ranges _ (row_inclinations c h) None w psi R' M) as [_ [D _]]. split; [apply D; eauto | contradiction]. }
  destruct Ll as [Ll Lt]. destruct (posed_pixel _ _ PP) as (h' & w' & d' & W' & L' & R'' & P').
  split; [|split].
  - exists h, w, d. split; [exact W|]. split; [|split].
    + intros Hh Hw. destruct (rectangle_pixel w t 0 0 R) as [v Hv]; [lia | exact Hw|]. destruct (shape_some _ _ _ _ _ C1 Hv) as [x Hx].
      apply C2 in Hx. destruct Hx as (v' & Hv' & Hx). apply Q in Hv'. rewrite <- (channels_length _ _ _ _ _ _ _ W Hv'). destruct v'; [discriminate | cbn; lia].
    + rewrite row_inclinations_length, Lr in Ll. destruct (beam_inclinations c); [exact I | exact Ll].
    + intros N. destruct (Lt N) as [S D]. split; [|exact D].
      assert (h' = h) by (rewrite <- L', <- Lr; apply same_shape_nth in S; tauto). subst h'. exists w', d'. rewrite H in W'. split; [exact W'|].
      intros Hh. apply same_shape_nth in S. destruct S as [S1 S2]. destruct (nth_error poses 0) as [a|] eqn:A; [|apply nth_error_None in A; lia].
      destruct (nth_error ranges 0) as [b|] eqn:B; [|apply nth_error_None in B; lia]. pose proof (S2 0%nat a b A B) as Eq.
      pose proof (proj1 (Forall_forall _ _) R'' a (nth_error_In _ _ A)) as Ea. pose proof (proj1 (Forall_forall _ _) R' b (nth_error_In _ _ B)) as Eb. cbn in Ea, Eb. congruence.
  - intros r col. split.
    + intros [out O]. destruct (shape_some _ _ _ _ _ (same_shape_sym _ _ F2) O) as [v Hv]. exists v. now apply Q.
    + intros [v Hv]. apply Q in Hv. exact (shape_some _ _ _ _ _ F2 Hv).
  - intros r col out O. destruct (shape_some _ _ _ _ _ (same_shape_sym _ _ F2) O) as [v Hv]. destruct (shape_some _ _ _ _ _ F1 Hv) as [p Hp].
    rewrite F3, Hv, Hp in O. cbn [both] in O. injection O as <-. destruct (shape_some _ _ _ _ _ C1 Hv) as [x Hx]. pose proof (proj1 (C2 _ _ _) Hx) as (v' & Hv' & Hh).
    assert (v' = v) by congruence. subst v'. destruct (pixel_bounds _ _ _ _ _ R Hv) as [B1 B2].
    destruct (nth_error (row_inclinations c h) r) as [i|] eqn:I; [|apply nth_error_None in I; lia].
    exists h, w, d, v, x, i, psi, p. split; [exact W|]. split; [now apply Q|]. split; [exact Hh|]. split; [now apply row_inclinations_nth in I|]. split; [exact M|]. split; [|reflexivity].
    destruct (Z.eqb_spec (calib_name c) TOP) as [N|N].
    + destruct (Lt N) as [S _]. destruct (shape_some _ _ _ _ _ (same_shape_sym _ _ S) Hx) as [u Hu]. destruct (P' _ _ _ Hu) as (tv & Ht & Hm). exists tv. split; [exact Ht|].
      destruct (extract_posed ranges _ (row_inclinations c h) poses (vehicle_pose f) w psi R' M) as [D _]. destruct (D _ X0) as [_ D2].
      destruct (D2 r col x i u I Hx Hu) as (p' & Hp' & Ep & _). assert (p' = p) by congruence. subst p'. rewrite Ep. apply Hm.
    + destruct (extract_plain ranges _ (row_inclinations c h) None w psi R' M) as [D _]. destruct (D _ X0) as (_ & _ & D2). pose proof (D2 r col x i I Hx). congruence.
Qed.
Theorem lidar_cartesian_exists f top_pose poses c ri keep : posed top_pose poses -> fits f top_pose c ri -> exists img, lidar_cartesian f poses c ri keep = Ok img.
Proof.
  intros PP (h & w & d & W & Hd & Hl & Ht). unfold lidar_cartesian. change (match beam_inclinations c, dims ri with [], [] => Err IndexError | [], h :: _ => Ok h | _, _ => Ok 0%nat end) with (height_of c ri).
  destruct (height_exists c ri _ _ _ W) as [n Hn]. rewrite Hn. cbn [bind]. rewrite (height_inclinations _ _ _ _ _ _ W Hn).
  destruct (tensor_exists _ _ _ _ W) as [t T]. rewrite T. cbn [bind]. apply tensor_ok in T. destruct T as (h' & w' & d' & W' & L & R & Q).
  destruct (well_formed_unique _ _ _ _ _ _ _ W W') as (<- & <- & <-).
  assert (EC : exists ranges, channel0 t = Ok ranges).
  { unfold channel0. apply mapM_image_exists. intros r col v Hv. destruct (pixel_bounds _ _ _ _ _ R Hv) as [B1 B2]. apply Q in Hv. pose proof (channels_length _ _ _ _ _ _ _ W Hv) as Lv.
    destruct v as [|y v]; [|eauto]. cbn in Lv. assert (0 < d)%nat by (apply Hd; lia). lia. }
  destruct EC as [ranges C]. rewrite C. cbn [bind]. apply channel0_spec in C. destruct C as [C1 C2]. pose proof (rectangle_shape _ _ _ C1 R) as R'.
  pose proof (mounted_exists (calib_extrinsic c)) as M. set (psi := az_correction (calib_extrinsic c)) in *.
  assert (Lr : length ranges = h) by (rewrite <- L; symmetry; apply same_shape_nth in C1; tauto).
  assert (Ll : length (row_inclinations c h) = length ranges) by (rewrite row_inclinations_length, Lr; destruct (beam_inclinations c); auto).
  assert (EX : exists cart, extract_point_cloud ranges (calib_extrinsic c) (row_inclinations c h) (if Z.eqb (calib_name c) TOP then Some poses else None)
       (if Z.eqb (calib_name c) TOP then Some (vehicle_pose f) else None) = Ok cart /\ same_shape ranges cart).
  { destruct (Z.eqb_spec (calib_name c) TOP) as [N|N].
    - destruct (extract_posed ranges _ (row_inclinations c h) poses (vehicle_pose f) w psi R' M) as [D1 [_ D2]]. destruct (Ht N) as ((w' & dd & Wt & Hw) & NS).
      destruct D2 as [pts Hp]; [|exists pts; split; [exact Hp | exact (proj1 (D1 _ Hp))]]. split; [exact Ll|]. split; [|exact NS].
      destruct (posed_pixel _ _ PP) as (h' & w'' & d'' & Wp & Lp & Rp & _). destruct (well_formed_unique _ _ _ _ _ _ _ Wt Wp) as (<- & <- & _).
      destruct (Nat.eq_dec h 0) as [Z|Z].
      + destruct poses; [|cbn in Lp; lia]. destruct ranges; [constructor | cbn in Lr; lia].
      + rewrite Hw in Rp by lia. apply rectangle_same with w; [congruence | exact Rp | exact R'].
    - destruct (extract_plain ranges _ (row_inclinations c h) None w psi R' M) as [D1 [_ D2]]. destruct (D2 Ll) as [pts Hp]. exists pts. split; [exact Hp|].
      destruct (D1 _ Hp) as (_ & S & _). exact S. }
  destruct EX as (cart & EX & S). rewrite EX. cbn [bind]. unfold with_features. apply zip_image_exists. exact (same_shape_trans _ _ _ C1 S).
Qed.

(** ** All the lidars of a frame *)
Lemma posed_unique top p p' : posed top p -> posed top p' -> p = p'.
Proof. intros (t & T & P) (t' & T' & P'). assert (t' = t) by congruence. subst. congruence. Qed.
Lemma cartesian_fold f poses images k keep cs : forall out0,
  ((exists out, foldM (fun out c => do ri <- fetch images (calib_name c) k; do cart <- lidar_cartesian f poses c ri keep; Ok (set out (calib_name c) cart)) cs out0 = Ok out) <->
   forall c, In c cs -> exists ri img, fetch images (calib_name c) k = Ok ri /\ lidar_cartesian f poses c ri keep = Ok img) /\
  forall out, foldM (fun out c => do ri <- fetch images (calib_name c) k; do cart <- lidar_cartesian f poses c ri keep; Ok (set out (calib_name c) cart)) cs out0 = Ok out ->
    (forall n, ~ In n (map calib_name cs) -> get out n = get out0 n) /\
    (NoDup (map calib_name cs) -> forall c, In c cs -> exists ri img, fetch images (calib_name c) k = Ok ri /\ lidar_cartesian f poses c ri keep = Ok img /\ get out (calib_name c) = Some img).
Proof.
  induction cs as [|c cs IH]; intros out0.
  - cbn [foldM]. split; [split; [intros _ c [] | eauto]|]. intros out E. apply Ok_inj in E. subst. split; [reflexivity | intros _ c []].
  - cbn [foldM]. destruct (fetch images (calib_name c) k) as [ri|e] eqn:F; cbn [bind].
    2:{ split; [|discriminate]. split; [intros [? ?]; discriminate|]. intros A. destruct (A c (or_introl eq_refl)) as (ri & img & G & _). congruence. }
    destruct (lidar_cartesian f poses c ri keep) as [img|e] eqn:G; cbn [bind].
    2:{ split; [|discriminate]. split; [intros [? ?]; discriminate|]. intros A. destruct (A c (or_introl eq_refl)) as (ri' & img & G1 & G2). congruence. }
    destruct (IH (set out0 (calib_name c) img)) as [D V]. split.
    + rewrite D. split; intros A; [intros d [<-|I]; [eauto | auto] | intros d I; apply A; now right].
    + intros out E. destruct (V out E) as [V1 V2]. split.
      * intros n N. rewrite V1 by (intros I; apply N; now right). rewrite get_set. destruct (Z.eqb_spec n (calib_name c)) as [->|]; [|reflexivity]. elim N. now left.
      * intros ND d [<-|I].
        -- exists ri, img. split; [exact F|]. split; [exact G|]. rewrite V1, get_set, Z.eqb_refl; [reflexivity|]. now inversion ND.
        -- apply V2; [now inversion ND | exact I].
Qed.
Theorem cartesian_spec f images top k keep :
  ((exists out, convert_range_image_to_cartesian f images top k keep = Ok out) <->
   pose_image top /\ forall c, In c (laser_calibrations f) -> exists ri, fetch images (calib_name c) k = Ok ri /\ fits f top c ri) /\
  forall out, convert_range_image_to_cartesian f images top k keep = Ok out ->
    (forall n, ~ In n (map calib_name (laser_calibrations f)) -> get out n = None) /\
    (distinct_calibrations f -> forall c, In c (laser_calibrations f) -> exists ri img, fetch images (calib_name c) k = Ok ri /\ get out (calib_name c) = Some img /\
       fits f top c ri /\ cartesian_image f top c ri keep img).
Proof.
  unfold convert_range_image_to_cartesian. destruct (tensor top) as [t|e] eqn:T; cbn [bind].
  2:{ split; [|discriminate]. split; [intros [? ?]; discriminate|]. intros [P _]. apply posed_exists in P. destruct P as (ps & t & T' & _). congruence. }
  destruct (pixel_transforms t) as [poses|e] eqn:P; cbn [bind].
  2:{ split; [|discriminate]. split; [intros [? ?]; discriminate|]. intros [P' _]. apply posed_exists in P'. destruct P' as (ps & t' & T' & P''). assert (t' = t) by congruence. subst. congruence. }
  assert (PP : posed top poses) by (exists t; auto). destruct (cartesian_fold f poses images k keep (laser_calibrations f) []) as [D V]. split.
  - rewrite D. split.
    + intros A. split; [apply posed_exists; eauto|]. intros c I. destruct (A c I) as (ri & img & F & G). exists ri. split; [exact F|]. now destruct (lidar_cartesian_spec _ _ _ _ _ _ _ PP G).
    + intros [_ A] c I. destruct (A c I) as (ri & F & G). destruct (lidar_cartesian_exists f top poses c ri keep PP G) as [img H]. eauto.
  - intros out E. destruct (V out E) as [V1 V2]. split; [exact V1|]. intros ND c I. destruct (V2 ND c I) as (ri & img & F & G & H). exists ri, img.
    destruct (lidar_cartesian_spec _ _ _ _ _ _ _ PP G) as (S1 & S2 & S3). split; [exact F|]. split; [exact H|]. split; [exact S1|]. split; assumption.
Qed.

(** ** Sorted calibrations *)
Lemma insert_perm c l : Permutation (insert c l) (c :: l).
Proof.
  induction l as [|d l IH]; [reflexivity|]. cbn [insert]. destruct (Z.leb _ _); [reflexivity|]. rewrite IH. apply perm_swap.
Qed.
Lemma sort_perm l : Permutation (sort l) l.
Proof. induction l as [|c l IH]; [reflexivity|]. cbn [sort fold_right]. change (fold_right insert [] l) with (sort l). now rewrite insert_perm, IH. Qed.
Fixpoint rising (l : list calibration) : Prop := match l with [] => True | c :: l' => (forall d, In d l' -> (calib_name c <= calib_name d)%Z) /\ rising l' end.
Lemma insert_rising c l : rising l -> rising (insert c l).
Proof.
  induction l as [|d l IH]; intros H; [cbn; split; [intros ? []|exact I]|]. cbn [insert]. destruct (Z.leb_spec (calib_name c) (calib_name d)) as [L|L].
  - split; [|exact H]. intros e [<-|I]; [exact L|]. destruct H as [H _]. specialize (H e I). lia.
  - destruct H as [H1 H2]. split; [|now apply IH]. intros e I. apply (Permutation_in _ (insert_perm c l)) in I. destruct I as [<-|I]; [lia | auto].
Qed.
Lemma rising_ordered l : rising l -> ordered l.
Proof.
  induction l as [|c l IH]; intros H i j a b L A B; [destruct i; discriminate|]. destruct H as [H1 H2]. destruct j as [|j]; [lia|]. destruct i as [|i].
  - cbn in A, B. injection A as <-. apply H1. now apply nth_error_In in B.
  - cbn in A, B. apply (IH H2 i j a b); [lia | exact A | exact B].
Qed.
Theorem sort_ordered l : ordered (sort l).
Proof. apply rising_ordered. induction l; [exact I|]. cbn [sort fold_right]. now apply insert_rising. Qed.

(** ** Point clouds *)
Lemma Forall2_impl {A B} (P Q : A -> B -> Prop) l l' : (forall a b, P a b -> Q a b) -> Forall2 P l l' -> Forall2 Q l l'.
Proof. intros H F. induction F; constructor; auto. Qed.
Lemma mapM_nth {A B} (f : A -> result B) l r : mapM f l = Ok r -> forall j x, nth_error l j = Some x -> exists y, f x = Ok y /\ nth_error r j = Some y.
Proof.
  intros M. apply mapM_inv in M. induction M as [|a b l r E _ IH]; intros [|j] x H; try discriminate; cbn in *; [injection H as <-; eauto | eauto].
Qed.
Lemma where_hits_of ri t ranges : tensor ri = Ok t -> channel0 t = Ok ranges -> hits_of ri (where_positive ranges).
Proof.
  intros T C. apply tensor_ok in T. destruct T as (h & w & d & W & L & R & Q). apply channel0_spec in C. destruct C as [C1 C2]. destruct (where_hits ranges) as [H1 H2]. split; [|exact H2].
  intros r c. rewrite H1. unfold hit, lidar_hit. split.
  - intros (x & Hx & P). apply C2 in Hx. destruct Hx as (v & Hv & Hh). apply Q in Hv. eauto.
  - intros (v & x & Hv & Hh & P). exists x. split; [|exact P]. apply C2. apply Q in Hv. eauto.
Qed.
Lemma hits_unique ri l l' : hits_of ri l -> hits_of ri l' -> l = l'.
Proof. intros [A B] [A' B']. apply ascending_unique; [now apply ascending_of_nth | now apply ascending_of_nth|]. intros [r c]. rewrite A, A'. reflexivity. Qed.
Lemma lidar_cartesian_parts f poses c ri keep img : lidar_cartesian f poses c ri keep = Ok img -> exists t ranges, tensor ri = Ok t /\ channel0 t = Ok ranges.
Proof.
  unfold lidar_cartesian. intros E. destruct (match beam_inclinations c, dims ri with [], [] => Err IndexError | [], h :: _ => Ok h | _, _ => Ok 0%nat end) as [n|]; [|discriminate]. cbn [bind] in E.
  destruct (tensor ri) as [t|]; [|discriminate]. cbn [bind] in E. destruct (channel0 t) as [ranges|] eqn:C; [|discriminate]. eauto.
Qed.
Lemma fits_parts f top c ri : fits f top c ri -> exists t ranges, tensor ri = Ok t /\ channel0 t = Ok ranges.
Proof.
  intros (h & w & d & W & Hd & _). destruct (tensor_exists _ _ _ _ W) as [t T]. exists t. apply tensor_ok in T as T'. destruct T' as (h' & w' & d' & W' & L & R & Q).
  destruct (well_formed_unique _ _ _ _ _ _ _ W W') as (<- & <- & <-). assert (EC : exists ranges, channel0 t = Ok ranges); [|destruct EC as [ranges C]; eauto]. unfold channel0. apply mapM_image_exists.
  intros r col v Hv. destruct (pixel_bounds _ _ _ _ _ R Hv) as [B1 B2]. apply Q in Hv. pose proof (channels_length _ _ _ _ _ _ _ W Hv) as Lv.
  destruct v as [|y v]; [|eauto]. cbn in Lv. assert (0 < d)%nat by (apply Hd; lia). lia.
Qed.
Definition cloud_of (cartesian : dict (image (list R))) (images : dict (list (matrix R))) (projections : dict (list (matrix Z))) (k : nat) (c : calibration) :=
  do ri <- fetch images (calib_name c) k;
  do t <- tensor ri;
  do ranges <- channel0 t;
  do image <- match get cartesian (calib_name c) with Some i => Ok i | None => Err KeyError end;
  do points <- gather image (where_positive ranges);
  do cp <- fetch projections (calib_name c) k;
  do cp_tensor <- tensor cp;
  do cp_points <- gather cp_tensor (where_positive ranges);
  Ok (points, cp_points).
Lemma gather_channels (cp : matrix Z) t hits out : tensor cp = Ok t -> gather t hits = Ok out <-> Forall2 (fun rc v => channels cp (fst rc) (snd rc) v) hits out.
Proof.
  intros T. apply tensor_ok in T. destruct T as (h & w & d & W & L & R & Q). rewrite gather_ok. split; intros F; (eapply Forall2_impl; [|exact F]); intros [r c] v H; now apply Q.
Qed.
Lemma cloud_spec f top (cart : dict (image (list R))) images projections k keep c ri (img : image (list R)) : fetch images (calib_name c) k = Ok ri -> get cart (calib_name c) = Some img -> fits f top c ri -> cartesian_image f top c ri keep img ->
  (forall pts cps, cloud_of cart images projections k c = Ok (pts, cps) -> exists cp, fetch projections (calib_name c) k = Ok cp /\ lidar_cloud f top c ri cp keep pts cps) /\
  ((exists o, cloud_of cart images projections k c = Ok o) <-> exists cp, fetch projections (calib_name c) k = Ok cp /\ covers cp ri).
Proof.
  intros F G Fi [I1 I2]. destruct (fits_parts _ _ _ _ Fi) as (t & ranges & T & C). pose proof (where_hits_of _ _ _ T C) as H.
  assert (EG : exists pts, gather img (where_positive ranges) = Ok pts).
  { apply gather_exists. intros r col J N. apply (proj1 H) in J. destruct J as (v & x & Hv & _). destruct (proj2 (I1 r col)) as [o O]; [eauto|]. congruence. }
  destruct EG as [pts EG]. unfold cloud_of. rewrite F. cbn [bind]. rewrite T. cbn [bind]. rewrite C. cbn [bind]. rewrite G. cbn [bind]. rewrite EG. cbn [bind]. split.
  - intros pts' cps E. destruct (fetch projections (calib_name c) k) as [cp|] eqn:P; [|discriminate]. cbn [bind] in E. destruct (tensor cp) as [ct|] eqn:CT; [|discriminate]. cbn [bind] in E.
    destruct (gather ct (where_positive ranges)) as [o|] eqn:GC; [|discriminate]. cbn [bind] in E. apply Ok_inj in E. apply pair_equal_spec in E. destruct E as [<- <-].
    exists cp. split; [reflexivity|]. exists (where_positive ranges). split; [exact H|]. split.
    + apply gather_ok in EG. eapply Forall2_impl; [|exact EG]. intros [r col] v. apply I2.
    + now apply (gather_channels cp ct).
  - split.
    + intros [o E]. destruct (fetch projections (calib_name c) k) as [cp|] eqn:P; [|discriminate]. cbn [bind] in E. destruct (tensor cp) as [ct|] eqn:CT; [|discriminate]. cbn [bind] in E.
      destruct (gather ct (where_positive ranges)) as [u|] eqn:GC; [|discriminate]. exists cp. split; [reflexivity|]. split.
      * apply tensor_ok in CT. destruct CT as (h & w & d & W & _). eauto.
      * intros r col J. apply (proj1 H) in J. apply (gather_channels cp ct _ _ CT) in GC. clear - GC J. revert J. induction GC as [|[a b] v l l' Q _ IH]; intros J; [destruct J|].
        destruct J as [E|J]; [injection E as -> ->; eauto | auto].
    + intros (cp & P & ((h & w & d & W) & V)). rewrite P. cbn [bind]. destruct (tensor_exists _ _ _ _ W) as [ct CT]. rewrite CT. cbn [bind].
      destruct (gather_exists ct (where_positive ranges)) as [u GC]; [|rewrite GC; cbn [bind]; eauto]. intros r col J N. apply (proj1 H) in J. destruct (V r col J) as [v Hv].
      apply tensor_ok in CT. destruct CT as (h' & w' & d' & W' & L & R & Q). apply Q in Hv. congruence.
Qed.
Theorem point_cloud_spec f images projections top k keep : distinct_calibrations f ->
  ((exists out, convert_range_image_to_point_cloud f images projections top k keep = Ok out) <->
   pose_image top /\ forall c, In c (laser_calibrations f) -> exists ri cp, fetch images (calib_name c) k = Ok ri /\ fits f top c ri /\ fetch projections (calib_name c) k = Ok cp /\ covers cp ri) /\
  forall points cps, convert_range_image_to_point_cloud f images projections top k keep = Ok (points, cps) ->
    pose_image top /\ length points = length (laser_calibrations f) /\ length cps = length (laser_calibrations f) /\
    forall j c, nth_error (sort (laser_calibrations f)) j = Some c -> exists ri cp pts ps, fetch images (calib_name c) k = Ok ri /\ fetch projections (calib_name c) k = Ok cp /\
      nth_error points j = Some pts /\ nth_error cps j = Some ps /\ lidar_cloud f top c ri cp keep pts ps.
Proof.
  intros ND. unfold convert_range_image_to_point_cloud. destruct (cartesian_spec f images top k keep) as [D V].
  destruct (convert_range_image_to_cartesian f images top k keep) as [cart|e] eqn:E; cbn [bind].
  2:{ split; [|discriminate]. split; [intros [? ?]; discriminate|]. intros [P A]. destruct (proj2 D) as [o O]; [|discriminate]. split; [exact P|]. intros c I. destruct (A c I) as (ri & cp & F & G & _). eauto. }
  destruct (V cart eq_refl) as [_ V2]. specialize (V2 ND). destruct (proj1 D (ex_intro _ _ eq_refl)) as [PI_ _].
  change (fun c => do ri <- fetch images (calib_name c) k; do t <- tensor ri; do ranges <- channel0 t;
      do image <- match get cart (calib_name c) with Some i => Ok i | None => Err KeyError end;
      do points <- gather image (where_positive ranges); do cp <- fetch projections (calib_name c) k; do cp_tensor <- tensor cp;
      do cp_points <- gather cp_tensor (where_positive ranges); Ok (points, cp_points)) with (cloud_of cart images projections k).
  assert (S : forall c, In c (sort (laser_calibrations f)) <-> In c (laser_calibrations f)) by (intros c; split; apply Permutation_in; [|symmetry]; apply sort_perm).
  split.
  - split.
    + intros [out O]. destruct (mapM (cloud_of cart images projections k) (sort (laser_calibrations f))) as [outs|] eqn:M; [|discriminate]. split; [exact PI_|]. intros c I.
      destruct (V2 c I) as (ri & img & F & G & Fi & CI). destruct (cloud_spec f top cart images projections k keep c ri img F G Fi CI) as [_ [Q _]].
      destruct (In_nth_error _ _ (proj2 (S c) I)) as [j J]. destruct Q as (cp & Q1 & Q2).
      { destruct (mapM_nth _ _ _ M j c J) as (o & O1 & _). eauto. }
      exists ri, cp. auto.
    + intros [_ A]. destruct (mapM_exists (cloud_of cart images projections k) (sort (laser_calibrations f))) as [outs M]; [|rewrite M; cbn [bind]; eauto].
      intros c I. apply S in I. destruct (V2 c I) as (ri & img & F & G & Fi & CI). destruct (A c I) as (ri' & cp & _ & _ & Q1 & Q2).
      destruct (cloud_spec f top cart images projections k keep c ri img F G Fi CI) as [_ [_ Q]]. apply Q. exists cp. split; [exact Q1|]. destruct (A c I) as (ri2 & cp2 & F2 & _ & Q3 & Q4).
      assert (ri2 = ri) by congruence. assert (cp2 = cp) by congruence. now subst.
  - intros points cps O. destruct (mapM (cloud_of cart images projections k) (sort (laser_calibrations f))) as [outs|] eqn:M; [|discriminate]. cbn [bind] in O.
    apply Ok_inj in O. apply pair_equal_spec in O. destruct O as [<- <-]. pose proof (mapM_length _ _ _ M) as L. pose proof (Permutation_length (sort_perm (laser_calibrations f))) as PL.
    split; [exact PI_|]. split; [rewrite map_length; congruence|]. split; [rewrite map_length; congruence|]. intros j c J. pose proof (proj1 (S c) (nth_error_In _ _ J)) as I.
    destruct (V2 c I) as (ri & img & F & G & Fi & CI). destruct (cloud_spec f top cart images projections k keep c ri img F G Fi CI) as [Q _].
    destruct (mapM_nth _ _ _ M j c J) as ([pts ps] & O1 & O2). destruct (Q pts ps O1) as (cp & Q1 & Q2).
    exists ri, cp, pts, ps. split; [exact F|]. split; [exact Q1|]. rewrite !nth_error_map, O2. auto.
Qed.

(** ** From the frame itself *)
Lemma frame_image f p k n ri : distinct_lasers f -> parse_frame f = Ok p -> fetch (range_images p) n k = Ok ri <-> image_of f k n ri.
Proof.
  intros D P. split; [apply fetch_inv; assumption|]. intros (l & [I <-] & N). now apply (fetch_image f p l k ri D P I).
Qed.
Lemma frame_projection f p k n cp : distinct_lasers f -> parse_frame f = Ok p -> fetch (camera_projections p) n k = Ok cp <-> projection_of f k n cp.
Proof.
  intros D P. split.
  - intros F. destruct (in_dec Z.eq_dec n (map laser_name (lasers f))) as [I|I].
    + apply in_map_iff in I. destruct I as (l & <- & I). exists l. split; [split; [exact I | reflexivity]|]. now apply (fetch_image f p l k no_matrix D P I).
    + destruct (parse_content f p D P) as (_ & A & _). destruct (A n I) as (_ & G & _). unfold fetch in F. rewrite G in F. discriminate.
  - intros (l & [I <-] & N). now apply (fetch_image f p l k no_matrix D P I).
Qed.
Lemma no_matrix_pose : ~ pose_image (@no_matrix R).
Proof. intros (h & w & d & [E _] & _). discriminate. Qed.
Lemma laser_unique f n l l' : distinct_lasers f -> laser_of f n l -> laser_of f n l' -> l = l'.
Proof.
  intros D [I N] [I' N']. unfold distinct_lasers in D. revert D I I'. induction (lasers f) as [|x ls IH]; intros D I I'; [destruct I|]. inversion D as [|? ? Nx D' E]; subst.
  destruct I as [->|I], I' as [->|I']; auto; elim Nx; apply in_map_iff; [exists l' | exists l]; split; auto; congruence.
Qed.
Lemma frame_top f p m : distinct_lasers f -> parse_frame f = Ok p -> top_poses f m -> range_image_top_pose p = m.
Proof.
  intros D P (l & [I N] & S & E). destruct (parse_content f p D P) as (_ & _ & A & _). destruct (range_image (ri_return1 l)) as [ri|] eqn:F; [|now elim S].
  rewrite (A l ri I N F), E. reflexivity.
Qed.
Lemma frame_top_inv f p : distinct_lasers f -> parse_frame f = Ok p -> pose_image (range_image_top_pose p) -> top_poses f (range_image_top_pose p).
Proof.
  intros D P Q. destruct (parse_content f p D P) as (_ & _ & A & B).
  destruct (Exists_dec (fun l => laser_name l = TOP /\ range_image (ri_return1 l) <> None) (lasers f)) as [X|X].
  { intros l. destruct (Z.eq_dec (laser_name l) TOP), (range_image (ri_return1 l)); [left; split; [assumption | discriminate] | right; intros [_ F]; now elim F | right; tauto | right; tauto]. }
  - apply Exists_exists in X. destruct X as (l & I & N & S). exists l. split; [split; assumption|]. split; [exact S|]. destruct (range_image (ri_return1 l)) as [ri|] eqn:F; [|now elim S].
    rewrite (A l ri I N F) in *. destruct (range_image_pose (ri_return1 l)); [reflexivity|]. now elim no_matrix_pose.
  - rewrite B in Q; [now elim no_matrix_pose|]. intros l I N. destruct (range_image (ri_return1 l)) eqn:F; [|reflexivity]. elim X. apply Exists_exists. exists l. rewrite F. split; [exact I|]. split; [exact N | discriminate].
Qed.
Theorem frame_cartesian f p k keep : distinct_lasers f -> parse_frame f = Ok p ->
  ((exists out, convert_range_image_to_cartesian f (range_images p) (range_image_top_pose p) k keep = Ok out) <->
   exists top, top_poses f top /\ pose_image top /\ forall c, In c (laser_calibrations f) -> exists ri, image_of f k (calib_name c) ri /\ fits f top c ri) /\
  forall out, convert_range_image_to_cartesian f (range_images p) (range_image_top_pose p) k keep = Ok out ->
    (forall n, ~ In n (map calib_name (laser_calibrations f)) -> get out n = None) /\
    (distinct_calibrations f -> forall c, In c (laser_calibrations f) ->
       exists top ri img, top_poses f top /\ image_of f k (calib_name c) ri /\ get out (calib_name c) = Some img /\ cartesian_image f top c ri keep img).
Proof.
  intros D P. destruct (cartesian_spec f (range_images p) (range_image_top_pose p) k keep) as [S V]. split.
  - rewrite S. split.
    + intros [Q A]. exists (range_image_top_pose p). split; [now apply frame_top_inv|]. split; [exact Q|]. intros c I. destruct (A c I) as (ri & F & G). exists ri. split; [now apply (frame_image f p) | exact G].
    + intros (top & T & Q & A). rewrite (frame_top f p top D P T). split; [exact Q|]. intros c I. destruct (A c I) as (ri & F & G). exists ri. split; [now apply (frame_image f p) | exact G].
  - intros out E. destruct (V out E) as [V1 V2]. split; [exact V1|]. intros ND c I. destruct (V2 ND c I) as (ri & img & F & G & _ & CI).
    exists (range_image_top_pose p), ri, img. split; [apply frame_top_inv; try assumption; now apply S; eauto|]. split; [now apply (frame_image f p)|]. split; assumption.
Qed.
Theorem frame_clouds f p k keep : distinct_lasers f -> distinct_calibrations f -> parse_frame f = Ok p ->
  ((exists out, convert_range_image_to_point_cloud f (range_images p) (camera_projections p) (range_image_top_pose p) k keep = Ok out) <->
   exists top, top_poses f top /\ pose_image top /\ forall c, In c (laser_calibrations f) ->
     exists ri cp, image_of f k (calib_name c) ri /\ fits f top c ri /\ projection_of f k (calib_name c) cp /\ covers cp ri) /\
  forall points cps, convert_range_image_to_point_cloud f (range_images p) (camera_projections p) (range_image_top_pose p) k keep = Ok (points, cps) ->
    exists cs top, Permutation cs (laser_calibrations f) /\ ordered cs /\ top_poses f top /\ length points = length cs /\ length cps = length cs /\
      forall j c, nth_error cs j = Some c -> exists ri cp pts ps, image_of f k (calib_name c) ri /\ projection_of f k (calib_name c) cp /\
        nth_error points j = Some pts /\ nth_error cps j = Some ps /\ lidar_cloud f top c ri cp keep pts ps.
Proof.
  intros D ND P. destruct (point_cloud_spec f (range_images p) (camera_projections p) (range_image_top_pose p) k keep ND) as [S V]. split.
  - rewrite S. split.
    + intros [Q A]. exists (range_image_top_pose p). split; [now apply frame_top_inv|]. split; [exact Q|]. intros c I. destruct (A c I) as (ri & cp & F & G & H & J).
      exists ri, cp. split; [now apply (frame_image f p)|]. split; [exact G|]. split; [now apply (frame_projection f p) | exact J].
    + intros (top & T & Q & A). rewrite (frame_top f p top D P T). split; [exact Q|]. intros c I. destruct (A c I) as (ri & cp & F & G & H & J).
      exists ri, cp. split; [now apply (frame_image f p)|]. split; [exact G|]. split; [now apply (frame_projection f p) | exact J].
  - intros points cps E. destruct (V points cps E) as (Q & L1 & L2 & V2). exists (sort (laser_calibrations f)), (range_image_top_pose p).
    pose proof (Permutation_length (sort_perm (laser_calibrations f))) as PL. split; [apply sort_perm|]. split; [apply sort_ordered|]. split; [now apply frame_top_inv|]. split; [congruence|]. split; [congruence|].
    intros j c J. destruct (V2 j c J) as (ri & cp & pts & ps & F & G & H1 & H2 & H3). exists ri, cp, pts, ps.
    split; [now apply (frame_image f p)|]. split; [now apply (frame_projection f p)|]. auto.
Qed.
(** Without a first return of the top lidar there is nothing. *)
Theorem frame_topless f p k keep : distinct_lasers f -> parse_frame f = Ok p -> (forall l, laser_of f TOP l -> range_image (ri_return1 l) = None) ->
  convert_range_image_to_cartesian f (range_images p) (range_image_top_pose p) k keep = Err ValueError /\
  convert_range_image_to_point_cloud f (range_images p) (camera_projections p) (range_image_top_pose p) k keep = Err ValueError.
Proof.
  intros D P N. destruct (parse_content f p D P) as (_ & _ & _ & B). unfold convert_range_image_to_point_cloud, convert_range_image_to_cartesian. rewrite B; [split; reflexivity|].
  intros l I T. apply N. split; assumption.
Qed.

(** ** The dictionary of a frame *)
Definition entries_of (p : parsed) (first second : dict (image (list R))) (c : calibration) : result lidar_entries :=
  let n := calib_name c in
  do inclinations <- match beam_inclinations c with
                     | [] => do ri <- fetch (range_images p) n 0; match dims ri with [] => Err IndexError | h :: _ => Ok (compute_inclination (beam_inclination_min c) (beam_inclination_max c) h) end
                     | l => Ok l
                     end;
  do image1 <- of_key first n;
  do image2 <- of_key second n;
  do cp1 <- fetch (camera_projections p) n 0;
  do cp1 <- tensor cp1;
  do cp2 <- fetch (camera_projections p) n 1;
  do cp2 <- tensor cp2;
  Ok {| BEAM_INCLINATION := inclinations; LIDAR_EXTRINSIC := calib_extrinsic c; RANGE_IMAGE_FIRST_RETURN := image1; RANGE_IMAGE_SECOND_RETURN := image2; CAM_PROJ_FIRST_RETURN := cp1; CAM_PROJ_SECOND_RETURN := cp2 |}.
Lemma foldM_ext {A B} (g g' : B -> A -> result B) l : (forall b a, g b a = g' b a) -> forall b, foldM g l b = foldM g' l b.
Proof. intros H. induction l as [|a l IH]; intros b; cbn [foldM]; [reflexivity|]. rewrite H. destruct (g' b a); cbn [bind]; auto. Qed.
Lemma set_fold {V} (g : calibration -> result V) cs : forall out0,
  ((exists out, foldM (fun out c => do v <- g c; Ok (set out (calib_name c) v)) cs out0 = Ok out) <-> forall c, In c cs -> exists v, g c = Ok v) /\
  forall out, foldM (fun out c => do v <- g c; Ok (set out (calib_name c) v)) cs out0 = Ok out ->
    (forall n, ~ In n (map calib_name cs) -> get out n = get out0 n) /\
    (NoDup (map calib_name cs) -> forall c, In c cs -> exists v, g c = Ok v /\ get out (calib_name c) = Some v).
Proof.
  induction cs as [|c cs IH]; intros out0.
  - cbn [foldM]. split; [split; [intros _ c [] | eauto]|]. intros out E. apply Ok_inj in E. subst. split; [reflexivity | intros _ c []].
  - cbn [foldM]. destruct (g c) as [v|e] eqn:G; cbn [bind].
    2:{ split; [|discriminate]. split; [intros [? ?]; discriminate|]. intros A. destruct (A c (or_introl eq_refl)) as (v & H). congruence. }
    destruct (IH (set out0 (calib_name c) v)) as [D V0]. split.
    + rewrite D. split; intros A; [intros d [<-|I]; [eauto | auto] | intros d I; apply A; now right].
    + intros out E. destruct (V0 out E) as [V1 V2]. split.
      * intros n N. rewrite V1 by (intros I; apply N; now right). rewrite get_set. destruct (Z.eqb_spec n (calib_name c)) as [->|]; [|reflexivity]. elim N. now left.
      * intros ND d [<-|I].
        -- exists v. split; [exact G|]. rewrite V1, get_set, Z.eqb_refl; [reflexivity|]. now inversion ND.
        -- apply V2; [now inversion ND | exact I].
Qed.
Lemma lidar_dict_entries f p first second : parse_frame f = Ok p ->
  convert_range_image_to_cartesian f (range_images p) (range_image_top_pose p) 0 true = Ok first ->
  convert_range_image_to_cartesian f (range_images p) (range_image_top_pose p) 1 true = Ok second ->
  lidar_dict f = foldM (fun out c => do v <- entries_of p first second c; Ok (set out (calib_name c) v)) (laser_calibrations f) [].
Proof.
  intros P F S. unfold lidar_dict. rewrite P. cbn [bind]. rewrite F. cbn [bind]. rewrite S. cbn [bind]. apply foldM_ext. intros out c. unfold entries_of.
  repeat match goal with |- bind (bind ?x _) _ = _ => idtac | |- context [bind ?x _] => destruct x; cbn [bind]; [|reflexivity] end. reflexivity.
Qed.
Lemma tensor_shows cp t : tensor cp = Ok t -> shows t cp /\ an_image cp.
Proof. intros T. apply tensor_ok in T. destruct T as (h & w & d & W & _ & _ & Q). split; [exact Q | exists h, w, d; exact W]. Qed.
Theorem lidar_dict_spec f : distinct_lasers f -> distinct_calibrations f ->
  ((exists d, lidar_dict f = Ok d) <->
   Forall in_sequence (lasers f) /\ exists top, top_poses f top /\ pose_image top /\ forall c, In c (laser_calibrations f) ->
     exists ri1 ri2 cp1 cp2, image_of f 0 (calib_name c) ri1 /\ image_of f 1 (calib_name c) ri2 /\ fits f top c ri1 /\ fits f top c ri2 /\
       projection_of f 0 (calib_name c) cp1 /\ projection_of f 1 (calib_name c) cp2 /\ an_image cp1 /\ an_image cp2) /\
  forall d, lidar_dict f = Ok d ->
    (forall n, ~ In n (map calib_name (laser_calibrations f)) -> get d n = None) /\
    exists top, top_poses f top /\ forall c, In c (laser_calibrations f) ->
      exists ri1 ri2 cp1 cp2 e, image_of f 0 (calib_name c) ri1 /\ image_of f 1 (calib_name c) ri2 /\ projection_of f 0 (calib_name c) cp1 /\ projection_of f 1 (calib_name c) cp2 /\
        get d (calib_name c) = Some e /\ lidar_entry f top c ri1 ri2 cp1 cp2 e.
Proof.
  intros DL DC. destruct (parse_defined f DL) as [PD PE].
  destruct (parse_frame f) as [p|e] eqn:P.
  2:{ unfold lidar_dict. rewrite P. cbn [bind]. split; [|discriminate]. split; [intros [? ?]; discriminate|]. intros [F _]. apply PD in F. destruct F; discriminate. }
  assert (SQ : Forall in_sequence (lasers f)) by (apply PD; eauto).
  destruct (cartesian_spec f (range_images p) (range_image_top_pose p) 0 true) as [S1 V1].
  destruct (cartesian_spec f (range_images p) (range_image_top_pose p) 1 true) as [S2 V2].
  assert (FI := fun k n ri => frame_image f p k n ri DL P). assert (FP := fun k n cp => frame_projection f p k n cp DL P).
  destruct (convert_range_image_to_cartesian f (range_images p) (range_image_top_pose p) 0 true) as [first|e] eqn:C1.
  2:{ unfold lidar_dict. rewrite P. cbn [bind]. rewrite C1. cbn [bind]. split; [|discriminate]. split; [intros [? ?]; discriminate|]. intros (_ & top & T & Q & A).
      rewrite (frame_top f p top DL P T) in S1. destruct (proj2 S1) as [? ?]; [|discriminate]. split; [exact Q|]. intros c I.
      destruct (A c I) as (ri1 & ri2 & cp1 & cp2 & I1 & I2 & F1 & F2 & _). exists ri1. split; [now apply FI | exact F1]. }
  destruct (convert_range_image_to_cartesian f (range_images p) (range_image_top_pose p) 1 true) as [second|e] eqn:C2.
  2:{ unfold lidar_dict. rewrite P. cbn [bind]. rewrite C1. cbn [bind]. rewrite C2. cbn [bind]. split; [|discriminate]. split; [intros [? ?]; discriminate|]. intros (_ & top & T & Q & A).
      rewrite (frame_top f p top DL P T) in S2. destruct (proj2 S2) as [? ?]; [|discriminate]. split; [exact Q|]. intros c I.
      destruct (A c I) as (ri1 & ri2 & cp1 & cp2 & I1 & I2 & F1 & F2 & _). exists ri2. split; [now apply FI | exact F2]. }
  rewrite (lidar_dict_entries f p first second P C1 C2). destruct (set_fold (entries_of p first second) (laser_calibrations f) []) as [D V].
  destruct (V1 first eq_refl) as [_ W1]. specialize (W1 DC). destruct (V2 second eq_refl) as [_ W2]. specialize (W2 DC).
  destruct (proj1 S1 (ex_intro _ _ eq_refl)) as [TP _]. pose proof (frame_top_inv f p DL P TP) as TT.
  assert (EN : forall c, In c (laser_calibrations f) -> forall e, entries_of p first second c = Ok e ->
     exists ri1 ri2 cp1 cp2, image_of f 0 (calib_name c) ri1 /\ image_of f 1 (calib_name c) ri2 /\ projection_of f 0 (calib_name c) cp1 /\ projection_of f 1 (calib_name c) cp2 /\
       fits f (range_image_top_pose p) c ri1 /\ fits f (range_image_top_pose p) c ri2 /\ an_image cp1 /\ an_image cp2 /\ lidar_entry f (range_image_top_pose p) c ri1 ri2 cp1 cp2 e).
  { intros c I e E. destruct (W1 c I) as (ri1 & img1 & F1 & G1 & Fi1 & CI1). destruct (W2 c I) as (ri2 & img2 & F2 & G2 & Fi2 & CI2). unfold entries_of in E.
    destruct (match beam_inclinations c with [] => _ | _ => _ end) as [incl|] eqn:IN; [|discriminate]. cbn [bind] in E. unfold of_key in E. rewrite G1, G2 in E. cbn [bind] in E.
    destruct (fetch (camera_projections p) (calib_name c) 0) as [cp1|] eqn:Q1; [|discriminate]. cbn [bind] in E. destruct (tensor cp1) as [t1|] eqn:T1; [|discriminate]. cbn [bind] in E.
    destruct (fetch (camera_projections p) (calib_name c) 1) as [cp2|] eqn:Q2; [|discriminate]. cbn [bind] in E. destruct (tensor cp2) as [t2|] eqn:T2; [|discriminate]. cbn [bind] in E.
    apply Ok_inj in E. subst e. destruct (tensor_shows _ _ T1) as [H1 A1]. destruct (tensor_shows _ _ T2) as [H2 A2].
    exists ri1, ri2, cp1, cp2. split; [now apply FI|]. split; [now apply FI|]. split; [now apply FP|]. split; [now apply FP|]. split; [exact Fi1|]. split; [exact Fi2|]. split; [exact A1|]. split; [exact A2|].
    unfold lidar_entry. cbn [LIDAR_EXTRINSIC RANGE_IMAGE_FIRST_RETURN RANGE_IMAGE_SECOND_RETURN CAM_PROJ_FIRST_RETURN CAM_PROJ_SECOND_RETURN BEAM_INCLINATION].
    split; [reflexivity|]. split; [exact CI1|]. split; [exact CI2|]. split; [exact H1|]. split; [exact H2|].
    destruct Fi1 as (h & w & d & W & _ & Hl & _). exists h, w, d. split; [exact W|].
    assert (RI : incl = rev (row_inclinations c h)).
    { unfold row_inclinations. rewrite rev_involutive. destruct (beam_inclinations c); [|apply Ok_inj in IN; now subst]. rewrite F1 in IN. cbn [bind] in IN. rewrite (proj1 W) in IN. apply Ok_inj in IN. now subst. }
    assert (RL : length (row_inclinations c h) = h) by (rewrite row_inclinations_length; destruct (beam_inclinations c); auto).
    split; [subst incl; rewrite rev_length; exact RL|]. intros r k i K. subst incl. rewrite nth_error_rev, RL. destruct (Nat.ltb_spec k h); [|lia]. replace (h - 1 - k)%nat with r by lia.
    rewrite row_inclinations_nth, RL. split; [tauto|]. intros HH. split; [lia | exact HH]. }
  split.
  - rewrite D. split.
    + intros A. split; [exact SQ|]. exists (range_image_top_pose p). split; [exact TT|]. split; [exact TP|]. intros c I. destruct (A c I) as [e E].
      destruct (EN c I e E) as (ri1 & ri2 & cp1 & cp2 & ? & ? & ? & ? & ? & ? & ? & ? & _). exists ri1, ri2, cp1, cp2. tauto.
    + intros (_ & top & T & Q & A) c I. destruct (A c I) as (ri1 & ri2 & cp1 & cp2 & I1 & I2 & Fi1 & Fi2 & P1 & P2 & (h1 & w1 & d1 & A1) & (h2 & w2 & d2 & A2)).
      destruct (W1 c I) as (ri1' & img1 & F1 & G1 & _). destruct (W2 c I) as (ri2' & img2 & F2 & G2 & _). unfold entries_of.
      assert (IN : exists incl, match beam_inclinations c with [] => do ri <- fetch (range_images p) (calib_name c) 0; match dims ri with [] => Err IndexError | h :: _ => Ok (compute_inclination (beam_inclination_min c) (beam_inclination_max c) h) end | l => Ok l end = Ok incl).
      { destruct (beam_inclinations c); [|eauto]. rewrite (proj2 (FI 0%nat _ ri1) I1). cbn [bind]. destruct Fi1 as (h & w & d & [W _] & _). rewrite W. eauto. }
      destruct IN as [incl IN]. rewrite IN. cbn [bind]. unfold of_key. rewrite G1, G2. cbn [bind]. rewrite (proj2 (FP 0%nat _ cp1) P1). cbn [bind].
      destruct (tensor_exists _ _ _ _ A1) as [t1 T1]. rewrite T1. cbn [bind]. rewrite (proj2 (FP 1%nat _ cp2) P2). cbn [bind]. destruct (tensor_exists _ _ _ _ A2) as [t2 T2]. rewrite T2. cbn [bind]. eauto.
  - intros d E. destruct (V d E) as [X1 X2]. split; [exact X1|]. exists (range_image_top_pose p). split; [exact TT|]. intros c I. destruct (X2 DC c I) as (e & Ee & G).
    destruct (EN c I e Ee) as (ri1 & ri2 & cp1 & cp2 & ? & ? & ? & ? & ? & ? & ? & ? & L). exists ri1, ri2, cp1, cp2, e. tauto.
Qed.
