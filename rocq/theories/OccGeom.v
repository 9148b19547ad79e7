From Coq Require Import Reals List Arith Lra Lia Bool ZArith.
From Verif Require Import Base ResultLib ListLib GeomModel GeomBase WayModel OccModel OccSpec.
Import ListNotations.
Open Scope R_scope.

(** Rounding. *)
Lemma round_nearest x : nearest x (tf_round x).
Proof.
  unfold nearest, tf_round. destruct (base_Int_part x) as (A & B). set (f := Int_part x) in *.
  assert (D : 0 <= x - IZR f < 1) by lra.
  destruct (rltb (x - IZR f) (1 / 2)) eqn:E.
  - apply rltb_iff in E. rewrite Rabs_pos_eq by lra. split; [lra|intro; lra].
  - apply rltb_false in E. destruct (rltb (1 / 2) (x - IZR f)) eqn:E'.
    + apply rltb_iff in E'. rewrite plus_IZR. rewrite Rabs_left by lra. split; [lra|intro; lra].
    + apply rltb_false in E'. destruct (Z.even f) eqn:Ev.
      * rewrite Rabs_pos_eq by lra. split; [lra|auto].
      * rewrite plus_IZR, Rabs_left by lra. split; [lra|]. intros _.
        rewrite Z.add_1_r, Z.even_succ, <- Z.negb_even, Ev. reflexivity.
Qed.
Lemma nearest_unique x a b : nearest x a -> nearest x b -> a = b.
Proof.
  intros (A & EA) (B & EB).
  assert (forall u v, Rabs (x - IZR u) <= 1 / 2 -> (Rabs (x - IZR u) = 1 / 2 -> Z.even u = true) ->
    Rabs (x - IZR v) <= 1 / 2 -> (Rabs (x - IZR v) = 1 / 2 -> Z.even v = true) -> (u < v)%Z -> False) as H.
  { clear. intros u v A EA B EB L.
    assert (L' : IZR u + 1 <= IZR v) by (rewrite <- plus_IZR; apply IZR_le; lia).
    destruct (Rabs_def2 (x - IZR u) 1 ltac:(lra)) as (_ & _).
    assert (U : x - IZR u <= 1 / 2) by (pose proof (Rle_abs (x - IZR u)); lra).
    assert (V : - (x - IZR v) <= 1 / 2) by (pose proof (Rle_abs (- (x - IZR v))) as P; rewrite Rabs_Ropp in P; lra).
    assert (X : x = IZR u + 1 / 2) by lra. assert (Y : IZR v = IZR u + 1) by lra.
    assert (Ev : Z.even u = true) by (apply EA; rewrite X; replace (IZR u + 1 / 2 - IZR u) with (1 / 2) by ring; apply Rabs_pos_eq; lra).
    assert (Ew : Z.even v = true).
    { apply EB. rewrite X, Y. replace (IZR u + 1 / 2 - (IZR u + 1)) with (- (1 / 2)) by field. rewrite Rabs_Ropp. apply Rabs_pos_eq; lra. }
    rewrite <- plus_IZR in Y. apply eq_IZR in Y. subst v. rewrite Z.add_1_r, Z.even_succ, <- Z.negb_even, Ev in Ew. discriminate. }
  destruct (Z.lt_trichotomy a b) as [L|[L|L]]; [exfalso; eauto|exact L|exfalso; eauto].
Qed.
Lemma round_iff x z : nearest x z <-> tf_round x = z.
Proof. split; [intro H; exact (nearest_unique x _ _ (round_nearest x) H)|intros <-; apply round_nearest]. Qed.

(** The vehicle's frame. *)
Lemma seen_code c sc x y :
  (let angle := PI / 2 - sdc_yaw sc in
   let p := (x - sdc_x sc, y - sdc_y sc) in
   if normalize_sdc_yaw c then rotate angle p else p) = seen_from_vehicle c sc (x, y).
Proof.
  unfold seen_from_vehicle, rotate. cbn [fst snd]. destruct (normalize_sdc_yaw c); [|reflexivity].
  rewrite cos_shift, sin_shift. f_equal; ring.
Qed.
Lemma falls_code c sc p r q : falls_in c sc p r q <-> to_image c (seen_from_vehicle c sc p) = (q, r).
Proof.
  unfold falls_in, to_image. cbn zeta. set (s := seen_from_vehicle c sc p).
  replace (- (snd s * pixels_per_meter c)) with (- snd s * pixels_per_meter c) by ring.
  rewrite !round_iff. split.
  - intros (A & B). f_equal; lia.
  - intro H. injection H as A B. split; lia.
Qed.

(** The samples. *)
Lemma coordinate_fraction n i : (0 < n)%nat -> (i < n)%nat -> unit_coordinate n i = fraction n i.
Proof.
  intros N I. unfold unit_coordinate, fraction, unit_step. destruct (Nat.eqb_spec n 1) as [E|E].
  - assert (i = 0)%nat by lia. subst. cbn. lra.
  - rewrite minus_INR by lia. change (INR 1) with 1. assert (1 < INR n) by (change 1 with (INR 1); apply lt_INR; lia).
    field. lra.
Qed.
Lemma placed_code c sc s a b :
  let x := pos_x s - sdc_x sc in
  let y := pos_y s - sdc_y sc in
  let angle := PI / 2 - sdc_yaw sc in
  let center := if normalize_sdc_yaw c then rotate angle (x, y) else (x, y) in
  let yaw := if normalize_sdc_yaw c then bbox_yaw s + angle else bbox_yaw s in
  (cos yaw * box_length s * a - sin yaw * box_width s * b + fst center,
   sin yaw * box_length s * a + cos yaw * box_width s * b + snd center) = seen_from_vehicle c sc (box_place s a b).
Proof.
  cbn zeta. unfold seen_from_vehicle, box_place, rotate. cbn [fst snd].
  destruct (normalize_sdc_yaw c); cbn [fst snd].
  - rewrite cos_plus, sin_plus, cos_shift, sin_shift. f_equal; ring.
  - f_equal; ring.
Qed.
Definition pix (c : render_config) (sc : scene) (s : state) (ij : nat * nat) : pixel :=
  to_image c (seen_from_vehicle c sc (sample_of c s (fst ij) (snd ij))).
Definition cells (c : render_config) : list (nat * nat) :=
  flat_map (fun i => map (fun j => (i, j)) (seq 0 (points_per_side_width c))) (seq 0 (points_per_side_length c)).
Lemma flat_map_ext_in {A B} (f g : A -> list B) l : (forall a, In a l -> f a = g a) -> flat_map f l = flat_map g l.
Proof.
  induction l as [|x l IH]; intro H; [reflexivity|]. cbn. rewrite (H x (or_introl eq_refl)). f_equal.
  apply IH. intros a I. apply H. now right.
Qed.
Lemma map_flat_map {A B C} (g : B -> C) (f : A -> list B) l : map g (flat_map f l) = flat_map (fun a => map g (f a)) l.
Proof. induction l as [|x l IH]; [reflexivity|]. cbn. now rewrite map_app, IH. Qed.
Lemma samples_code c sc s : sampled c -> map (to_image c) (sample_points c sc s) = map (pix c sc s) (cells c).
Proof.
  intros (L & W). unfold sample_points, unit_points, cells. rewrite map_map, !map_flat_map.
  apply flat_map_ext_in. intros i I. apply in_seq in I. rewrite !map_map. apply map_ext_in. intros j J. apply in_seq in J.
  unfold pix, sample_of. cbn [fst snd].
  rewrite (coordinate_fraction (points_per_side_length c) i), (coordinate_fraction (points_per_side_width c) j) by lia.
  f_equal. apply placed_code.
Qed.
Lemma in_cells c i j : In (i, j) (cells c) <-> (i < points_per_side_length c)%nat /\ (j < points_per_side_width c)%nat.
Proof.
  unfold cells. rewrite in_flat_map. split.
  - intros (k & K & H). apply in_map_iff in H. destruct H as (l & E & L). injection E as <- <-.
    apply in_seq in K. apply in_seq in L. lia.
  - intros (I & J). exists i. split; [apply in_seq; lia|]. apply in_map_iff. exists j. split; [reflexivity|apply in_seq; lia].
Qed.
Lemma nodup_cells c : NoDup (cells c).
Proof.
  unfold cells. generalize (seq_NoDup (points_per_side_length c) 0). generalize (seq 0 (points_per_side_length c)) as l.
  induction l as [|i l IH]; intro N; [constructor|]. inversion N; subst. cbn. apply nodup_app.
  - apply FinFun.Injective_map_NoDup; [intros a b E; congruence|apply seq_NoDup].
  - now apply IH.
  - intros (a, b) P Q. apply in_map_iff in P. destruct P as (j & E & _). injection E as <- <-.
    apply in_flat_map in Q. destruct Q as (k & K & Q). apply in_map_iff in Q. destruct Q as (j' & E & _). injection E as <- <-. contradiction.
Qed.
Lemma marks_code c sc s r q : marks c sc s r q <-> In (q, r) (map (pix c sc s) (cells c)).
Proof.
  unfold marks. rewrite in_map_iff. split.
  - intros (i & j & I & J & F). exists (i, j). split; [|now apply in_cells]. unfold pix. cbn [fst snd]. now apply falls_code.
  - intros ((i, j) & E & I). apply in_cells in I. exists i, j. split; [tauto|]. split; [tauto|]. now apply falls_code.
Qed.

(** Moving the world changes nothing seen from the vehicle. *)
Lemma seen_moved c angle dx dy sc x y : normalize_sdc_yaw c = true ->
  seen_from_vehicle c (move_scene angle dx dy sc) (move_point angle dx dy x y) = seen_from_vehicle c sc (x, y).
Proof.
  intro N. unfold seen_from_vehicle, move_scene, move_point. rewrite N. cbn [fst snd sdc_x sdc_y sdc_yaw].
  rewrite cos_plus, sin_plus. pose proof (sin2_cos2 angle) as U. unfold Rsqr in U.
  set (ca := cos angle) in *. set (sa := sin angle) in *. set (cy := cos (sdc_yaw sc)). set (sy := sin (sdc_yaw sc)).
  f_equal.
  - transitivity ((sa * sa + ca * ca) * ((x - sdc_x sc) * sy - (y - sdc_y sc) * cy)); [ring|rewrite U; ring].
  - transitivity ((sa * sa + ca * ca) * ((x - sdc_x sc) * cy + (y - sdc_y sc) * sy)); [ring|rewrite U; ring].
Qed.
Lemma place_moved angle dx dy s a b :
  box_place (move_state angle dx dy s) a b = move_point angle dx dy (fst (box_place s a b)) (snd (box_place s a b)).
Proof.
  unfold box_place, move_state, move_point. cbn [fst snd pos_x pos_y bbox_yaw box_length box_width].
  rewrite cos_plus, sin_plus. f_equal; ring.
Qed.
Lemma pix_moved c angle dx dy sc s ij : normalize_sdc_yaw c = true ->
  pix c (move_scene angle dx dy sc) (move_state angle dx dy s) ij = pix c sc s ij.
Proof.
  intro N. unfold pix, sample_of. rewrite place_moved, seen_moved by exact N. now rewrite <- surjective_pairing.
Qed.
