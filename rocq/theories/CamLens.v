(** The lens. *)
From Coq Require Import Reals Lra Psatz List Bool.
From Verif Require Import Base ResultLib GeomModel GeomBase FrameModel FrameSpec FrameProofs CamModel CamSpec.
Import ListNotations.
Open Scope R_scope.

Lemma radial_factor c u v : radial c u v = lens_factor c u v.
Proof. unfold radial, lens_factor. ring. Qed.
Lemma in_image_iff c u v : in_image c u v = true <-> inside c (u, v).
Proof. unfold in_image, inside. rewrite !andb_true_iff, !rleb_iff, !rltb_iff. reflexivity. Qed.

Lemma trusted_pixel c n : trusted c n -> direction_to_image c (fst n) (snd n) = (true, pixel_of c n).
Proof.
  destruct n as [u v]. unfold trusted. cbn [fst snd]. intros [A B]. unfold direction_to_image, kMinRadialDistortion, kMaxRadialDistortion.
  replace (1 + k1 c * (u * u + v * v) + k2 c * ((u * u + v * v) * (u * u + v * v)) + k5 c * ((u * u + v * v) * (u * u + v * v) * (u * u + v * v)))
    with (lens_factor c u v) by (unfold lens_factor; ring).
  destruct (rltb (lens_factor c u v) (8 / 10)) eqn:E1; [apply rltb_iff in E1; lra|].
  destruct (rltb (12 / 10) (lens_factor c u v)) eqn:E2; [apply rltb_iff in E2; lra|]. cbn [orb].
  unfold pixel_of, distorted. cbn [fst snd]. f_equal. f_equal; ring.
Qed.

Lemma untrusted_pixel c n : ~ trusted c n ->
  let r := direction_to_image c (fst n) (snd n) in
  fst r = false /\
  exists s, 0 < s /\ s ^ 2 * (fst n ^ 2 + snd n ^ 2) = width c ^ 2 + height c ^ 2 /\
    snd r = (c_u c + s * fst n, c_v c + s * snd n) \/ width c = 0 /\ height c = 0.
Proof.
  destruct n as [u v]. unfold trusted. cbn [fst snd]. intros H. unfold direction_to_image, kMinRadialDistortion, kMaxRadialDistortion.
  replace (1 + k1 c * (u * u + v * v) + k2 c * ((u * u + v * v) * (u * u + v * v)) + k5 c * ((u * u + v * v) * (u * u + v * v) * (u * u + v * v)))
    with (lens_factor c u v) by (unfold lens_factor; ring).
  assert (rltb (lens_factor c u v) (8 / 10) || rltb (12 / 10) (lens_factor c u v) = true) as ->.
  { destruct (rltb (lens_factor c u v) (8 / 10)) eqn:E1; [reflexivity|]. apply rltb_false in E1.
    destruct (rltb (12 / 10) (lens_factor c u v)) eqn:E2; [reflexivity|]. apply rltb_false in E2. exfalso. apply H. lra. }
  cbn [fst snd]. split; [reflexivity|].
  assert (P : 0 < u * u + v * v).
  { destruct (Rle_lt_or_eq_dec 0 (u * u + v * v)) as [L|E]; [nra|assumption|]. exfalso. apply H. assert (u = 0) by nra. assert (v = 0) by nra.
    subst. unfold lens_factor. lra. }
  pose proof (sqrt_lt_R0 _ P) as Q. pose proof (sqrt_sqrt (u * u + v * v) ltac:(lra)) as QQ.
  assert (W : 0 <= width c * width c + height c * height c) by nra.
  destruct (Rle_lt_or_eq_dec 0 _ W) as [L|E].
  - pose proof (sqrt_lt_R0 _ L) as G. pose proof (sqrt_sqrt _ W) as GG.
    exists (sqrt (width c * width c + height c * height c) / sqrt (u * u + v * v)). left. split; [now apply Rdiv_lt_0_compat|]. split.
    + replace (u ^ 2 + v ^ 2) with (sqrt (u * u + v * v) * sqrt (u * u + v * v)) by (rewrite QQ; ring).
      transitivity (sqrt (width c * width c + height c * height c) * sqrt (width c * width c + height c * height c)); [|rewrite GG; ring].
      field. lra.
    + f_equal; field; lra.
  - exists 1. right. split; nra.
Qed.
Lemma untrusted_outside c n : sane c -> inside c (c_u c, c_v c) -> ~ trusted c n -> ~ inside c (snd (direction_to_image c (fst n) (snd n))).
Proof.
  intros (Hfu & Hfv & Hw & Hh) I H. destruct (untrusted_pixel c n H) as [_ [s [(S & Q & E)|[A _]]]]; [|lra]. rewrite E.
  unfold inside in *. cbn [fst snd] in *. intros [A B].
  assert (s * fst n * (s * fst n) < width c * width c) by nra. assert (s * snd n * (s * snd n) < height c * height c) by nra. nra.
Qed.

(** ** Undistortion *)
Lemma step_ok c t m n : undistortion_step c (fst t) (snd t) (fst m) (snd m) = Ok n <->
  lens_factor c (fst m) (snd m) <> 0 /\
  fst (distorted c m) - fst t = lens_factor c (fst m) (snd m) * (fst m - fst n) /\
  snd (distorted c m) - snd t = lens_factor c (fst m) (snd m) * (snd m - snd n).
Proof.
  destruct t as [tu tv], m as [u v], n as [a b]. unfold undistortion_step, distorted. rewrite radial_factor. cbn [fst snd].
  destruct (is_zero (lens_factor c u v)) eqn:E.
  - apply is_zero_true in E. split; [discriminate|]. intros [A _]. contradiction.
  - apply is_zero_false in E. set (f := lens_factor c u v) in *. split.
    + intros H. injection H as <- <-. split; [assumption|]. split; field; assumption.
    + intros (_ & A & B). f_equal. f_equal; apply (Rmult_eq_reg_l f); try assumption; field_simplify; try assumption; nra.
Qed.
Lemma step_fixed c t m : undistortion_step c (fst t) (snd t) (fst m) (snd m) = Ok m <-> lens_factor c (fst m) (snd m) <> 0 /\ distorted c m = t.
Proof.
  rewrite step_ok. destruct t as [a b], (distorted c m) as [x y]. cbn [fst snd]. split; intros (A & B).
  - destruct B. split; [assumption|]. f_equal; lra.
  - injection B as -> ->. split; [assumption|]. split; ring.
Qed.

Lemma iterate_found fuel : forall c e t m n, iterate_undistortion fuel c e (fst t) (snd t) (fst m) (snd m) = Ok n ->
  (exists m', (fst n - fst m') ^ 2 + (snd n - snd m') ^ 2 < e /\ undistortion_step c (fst t) (snd t) (fst m') (snd m') = Ok n) \/
  (exists ms, length ms = S fuel /\ nth_error ms 0 = Some m /\ nth_error ms fuel = Some n /\
     forall k a b, nth_error ms k = Some a -> nth_error ms (S k) = Some b ->
       undistortion_step c (fst t) (snd t) (fst a) (snd a) = Ok b /\ e <= (fst b - fst a) ^ 2 + (snd b - snd a) ^ 2).
Proof.
  induction fuel as [|fuel IH]; intros c e t m n H; cbn [iterate_undistortion] in H.
  - right. injection H as H. exists [m]. split; [reflexivity|]. split; [reflexivity|]. split; [cbn; rewrite <- H; now destruct m|].
    intros [|[|k]] a b A B; cbn in A, B; discriminate.
  - destruct (undistortion_step c (fst t) (snd t) (fst m) (snd m)) as [x|] eqn:E; cbn [bind] in H; [|discriminate].
    destruct (rltb _ e) eqn:L.
    + left. injection H as <-. apply rltb_iff in L. exists m. split; [|assumption]. nra.
    + apply rltb_false in L. destruct (IH _ _ _ _ _ H) as [?|(ms & A & B & C & D)]; [now left|]. right. exists (m :: ms).
      split; [cbn; now rewrite A|]. split; [reflexivity|]. split; [exact C|].
      intros [|k] a b P Q; cbn [nth_error] in P, Q.
      * injection P as <-. assert (x = b) as <- by (destruct ms; [discriminate|cbn [nth_error] in B, Q; congruence]). split; [assumption|nra].
      * now apply D with k.
Qed.

Definition shrunk (c : calibration) (q : R * R) : R * R := ((fst q - c_u c) / f_u c, (snd q - c_v c) / f_v c).
Lemma image_to_direction_ok c q n : image_to_direction c (fst q) (snd q) = Ok n -> 0 < f_u c /\ 0 < f_v c /\
  iterate_undistortion 20 c (min_delta2 c) (fst (shrunk c q)) (snd (shrunk c q)) (fst (shrunk c q)) (snd (shrunk c q)) = Ok n.
Proof.
  unfold image_to_direction, shrunk. cbn [fst snd]. destruct (rleb (f_u c) 0) eqn:A; [discriminate|].
  destruct (rleb (f_v c) 0) eqn:B; [discriminate|]. cbn [orb]. apply rleb_false in A, B. auto.
Qed.
(** Early exit: the direction is next to one whose pixel is next to the given one. *)
Lemma early_exit c q n : image_to_direction c (fst q) (snd q) = Ok n ->
  (exists m, (fst n - fst m) ^ 2 + (snd n - snd m) ^ 2 < / 10 ^ 12 / (f_u c ^ 2 + f_v c ^ 2) /\
     (fst (pixel_of c m) - fst q) ^ 2 + (snd (pixel_of c m) - snd q) ^ 2 <= (lens_factor c (fst m) (snd m) * / 10 ^ 6) ^ 2) \/
  (exists ms, length ms = 21%nat /\ nth_error ms 0 = Some (shrunk c q) /\ nth_error ms 20 = Some n /\
     forall k a b, nth_error ms k = Some a -> nth_error ms (S k) = Some b ->
       undistortion_step c (fst (shrunk c q)) (snd (shrunk c q)) (fst a) (snd a) = Ok b /\
       min_delta2 c <= (fst b - fst a) ^ 2 + (snd b - snd a) ^ 2).
Proof.
  intros H. destruct (image_to_direction_ok c q n H) as (Hu & Hv & E).
  apply iterate_found in E. destruct E as [(m & L & E)|E]; [left|now right].
  exists m. apply step_ok in E. destruct E as (F & A & B). set (f := lens_factor c (fst m) (snd m)) in *.
  assert (P : 0 < f_u c ^ 2 + f_v c ^ 2) by nra.
  assert (D : min_delta2 c = / 10 ^ 12 / (f_u c ^ 2 + f_v c ^ 2)).
  { unfold min_delta2. replace (f_u c * f_u c + f_v c * f_v c) with (f_u c ^ 2 + f_v c ^ 2) by ring. f_equal. f_equal. ring. }
  rewrite D in L. split; [exact L|]. unfold pixel_of. cbn [fst snd].
  assert (A' : fst (distorted c m) * f_u c + c_u c - fst q = f * (fst m - fst n) * f_u c).
  { rewrite <- A. unfold shrunk. cbn [fst snd]. field. lra. }
  assert (B' : snd (distorted c m) * f_v c + c_v c - snd q = f * (snd m - snd n) * f_v c).
  { rewrite <- B. unfold shrunk. cbn [fst snd]. field. lra. }
  rewrite A', B'. set (x := fst m - fst n). set (y := snd m - snd n).
  replace ((fst n - fst m) ^ 2 + (snd n - snd m) ^ 2) with (x ^ 2 + y ^ 2) in L by (unfold x, y; ring).
  apply (Rmult_lt_compat_r _ _ _ P) in L. unfold Rdiv in L. rewrite Rmult_assoc, Rinv_l, Rmult_1_r in L by lra.
  replace ((f * / 10 ^ 6) ^ 2) with (f ^ 2 * / 10 ^ 12) by (field).
  replace ((f * x * f_u c) ^ 2 + (f * y * f_v c) ^ 2) with (f ^ 2 * ((x * f_u c) ^ 2 + (y * f_v c) ^ 2)) by ring.
  apply Rmult_le_compat_l; [apply pow2_ge_0|].
  apply Rle_trans with ((x ^ 2 + y ^ 2) * (f_u c ^ 2 + f_v c ^ 2)); [|lra].
  pose proof (pow2_ge_0 (x * f_v c)). pose proof (pow2_ge_0 (y * f_u c)). nra.
Qed.

(** ** A plain lens *)
Lemma plain_factor c u v : plain c -> lens_factor c u v = 1.
Proof. intros (A & B & _ & _ & E). unfold lens_factor. rewrite A, B, E. ring. Qed.
Lemma plain_trusted c n : plain c -> trusted c n.
Proof. intros H. unfold trusted. rewrite plain_factor by assumption. lra. Qed.
Lemma plain_distorted c n : plain c -> distorted c n = n.
Proof.
  intros H. destruct n as [u v]. unfold distorted. rewrite plain_factor by assumption. destruct H as (_ & _ & C & D & _). rewrite C, D.
  f_equal; ring.
Qed.
Lemma min_delta2_pos c : 0 < f_u c -> 0 < f_v c -> 0 < min_delta2 c.
Proof. intros A B. unfold min_delta2. apply Rdiv_lt_0_compat; [lra|]. nra. Qed.
Lemma plain_pixel c n : plain c -> pixel_of c n = (fst n * f_u c + c_u c, snd n * f_v c + c_v c).
Proof. intros H. unfold pixel_of. now rewrite plain_distorted. Qed.
Lemma exact_direction c q : 0 < f_u c -> 0 < f_v c -> lens_factor c (fst (shrunk c q)) (snd (shrunk c q)) <> 0 ->
  distorted c (shrunk c q) = shrunk c q -> image_to_direction c (fst q) (snd q) = Ok (shrunk c q).
Proof.
  intros A B F H. unfold image_to_direction.
  destruct (rleb (f_u c) 0) eqn:L; [apply rleb_iff in L; lra|]. destruct (rleb (f_v c) 0) eqn:L'; [apply rleb_iff in L'; lra|]. cbn [orb].
  change ((fst q - c_u c) / f_u c) with (fst (shrunk c q)). change ((snd q - c_v c) / f_v c) with (snd (shrunk c q)).
  change 20%nat with (S 19). cbn [iterate_undistortion].
  rewrite (proj2 (step_fixed c (shrunk c q) (shrunk c q)) (conj F H)). cbn [bind].
  replace (rltb _ _) with true; [reflexivity|]. symmetry. apply rltb_iff. pose proof (min_delta2_pos c A B).
  replace (fst (shrunk c q) - fst (shrunk c q)) with 0 by ring. replace (snd (shrunk c q) - snd (shrunk c q)) with 0 by ring. lra.
Qed.
Lemma plain_direction c q : plain c -> 0 < f_u c -> 0 < f_v c -> image_to_direction c (fst q) (snd q) = Ok (shrunk c q).
Proof. intros H A B. apply exact_direction; auto; [rewrite plain_factor by assumption; lra|now apply plain_distorted]. Qed.
Lemma plain_inverse c q : plain c -> 0 < f_u c -> 0 < f_v c -> pixel_of c (shrunk c q) = q.
Proof. intros H A B. rewrite plain_pixel by assumption. destruct q as [u v]. unfold shrunk. cbn [fst snd]. f_equal; field; lra. Qed.
Lemma plain_inverse' c n : plain c -> 0 < f_u c -> 0 < f_v c -> shrunk c (pixel_of c n) = n.
Proof. intros H A B. rewrite plain_pixel by assumption. destruct n as [u v]. unfold shrunk. cbn [fst snd]. f_equal; field; lra. Qed.
Lemma pixel_shrunk c q n : 0 < f_u c -> 0 < f_v c -> (pixel_of c n = q <-> distorted c n = shrunk c q).
Proof.
  intros A B. unfold pixel_of, shrunk. destruct q as [u v], (distorted c n) as [x y]. cbn [fst snd]. split; intros H; [injection H as <- <-|injection H as -> ->]; f_equal; field; lra.
Qed.
