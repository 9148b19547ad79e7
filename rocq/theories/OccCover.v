From Coq Require Import Reals List Arith Lra Lia Bool ZArith Psatz.
From Verif Require Import Base ResultLib ListLib GeomModel GeomBase WayModel WayFlow OccModel OccSpec OccGeom OccRender.
Import ListNotations.
Open Scope R_scope.

Lemma abs_le x e : Rabs x <= e <-> - e <= x <= e.
Proof.
  split.
  - intro H. pose proof (Rle_abs x). pose proof (Rle_abs (- x)) as P. rewrite Rabs_Ropp in P. lra.
  - intro H. apply Rabs_le. exact H.
Qed.
Lemma near_fraction n a : (2 <= n)%nat -> - (1 / 2) <= a <= 1 / 2 ->
  exists i, (i < n)%nat /\ Rabs (a - fraction n i) <= / (2 * INR (n - 1)).
Proof.
  intros N A. set (m := INR (n - 1)).
  assert (M : 1 <= m) by (unfold m; change 1 with (INR 1); apply le_INR; lia).
  destruct (round_nearest ((a + 1 / 2) * m)) as (H & _). apply abs_le in H. set (z := tf_round ((a + 1 / 2) * m)) in *.
  assert (Y : 0 <= (a + 1 / 2) * m <= m).
  { split; [apply Rmult_le_pos; lra|]. apply Rle_trans with (1 * m); [apply Rmult_le_compat_r; lra|lra]. }
  assert (Z0 : (0 <= z)%Z).
  { apply le_IZR. destruct (Z_lt_le_dec z 0) as [L|L]; [|now apply IZR_le].
    exfalso. assert (IZR z <= -1) by (apply IZR_le; lia). lra. }
  assert (Zn : (z < Z.of_nat n)%Z).
  { destruct (Z_lt_le_dec z (Z.of_nat n)) as [L|L]; [exact L|]. exfalso. apply IZR_le in L. rewrite <- INR_IZR_INZ in L.
    unfold m in *. rewrite minus_INR in * by lia. change (INR 1) with 1 in *. lra. }
  exists (Z.to_nat z). split; [lia|]. unfold fraction. destruct (Nat.eqb_spec n 1); [lia|]. fold m.
  rewrite INR_IZR_INZ, Z2Nat.id by exact Z0. apply abs_le.
  replace (a - (IZR z / m - 1 / 2)) with (((a + 1 / 2) * m - IZR z) * / m) by (field; lra).
  replace (/ (2 * m)) with (1 / 2 * / m) by (field; lra). assert (P : 0 < / m) by (apply Rinv_0_lt_compat; lra). nra.
Qed.

(** A combination of a direction and the one across it, of small parts, is small. *)
Lemma across ct st u v p q : ct * ct + st * st = 1 -> p * p + q * q < 1 -> 0 <= p -> 0 <= q ->
  Rabs u <= p / 2 -> Rabs v <= q / 2 -> Rabs (ct * u + st * v) < 1 / 2.
Proof.
  intros U Q P0 Q0 A B. apply abs_le in A. apply abs_le in B.
  assert (UV : (2 * u) * (2 * u) + (2 * v) * (2 * v) < 1).
  { assert ((2 * u) * (2 * u) <= p * p) by nra. assert ((2 * v) * (2 * v) <= q * q) by nra. lra. }
  set (x := 2 * u) in *. set (y := 2 * v) in *. replace (ct * u + st * v) with ((ct * x + st * y) / 2) by (unfold x, y; field).
  assert (C : (ct * x + st * y) * (ct * x + st * y) <= x * x + y * y).
  { assert (E : x * x + y * y = (ct * ct + st * st) * (x * x + y * y)) by (rewrite U; ring). rewrite E.
    pose proof (Rle_0_sqr (ct * y - st * x)) as S. unfold Rsqr in S. nra. }
  apply Rabs_def1; nra.
Qed.

Lemma coverage c sc s r q :
  (2 <= points_per_side_length c)%nat -> (2 <= points_per_side_width c)%nat -> 0 < pixels_per_meter c -> 0 <= box_length s -> 0 <= box_width s ->
  (box_length s * pixels_per_meter c / INR (points_per_side_length c - 1)) ^ 2 +
  (box_width s * pixels_per_meter c / INR (points_per_side_width c - 1)) ^ 2 < 1 ->
  in_box c sc s r q -> marks c sc s r q.
Proof.
  intros L W K Hl Hw D (a & b & A & B & E).
  destruct (near_fraction _ a L A) as (i & I & NI). destruct (near_fraction _ b W B) as (j & J & NJ).
  exists i, j. split; [exact I|]. split; [exact J|]. unfold falls_in, sample_of. cbn zeta.
  rewrite <- placed_code in E. rewrite <- placed_code. cbn zeta in E |- *.
  set (yaw := if normalize_sdc_yaw c then bbox_yaw s + (PI / 2 - sdc_yaw sc) else bbox_yaw s) in *.
  set (center := if normalize_sdc_yaw c then rotate (PI / 2 - sdc_yaw sc) (pos_x s - sdc_x sc, pos_y s - sdc_y sc) else _) in *.
  cbn [fst snd]. injection E as EX EY.
  set (fi := fraction (points_per_side_length c) i) in *. set (fj := fraction (points_per_side_width c) j) in *.
  set (k := pixels_per_meter c) in *. set (l := box_length s) in *. set (w := box_width s) in *.
  set (nl := INR (points_per_side_length c - 1)) in *. set (nw := INR (points_per_side_width c - 1)) in *.
  assert (NL : 1 <= nl) by (unfold nl; change 1 with (INR 1); apply le_INR; lia).
  assert (NW : 1 <= nw) by (unfold nw; change 1 with (INR 1); apply le_INR; lia).
  assert (Il : 0 < / nl) by (apply Rinv_0_lt_compat; lra). assert (Iw : 0 < / nw) by (apply Rinv_0_lt_compat; lra).
  set (p := l * k / nl) in *. set (p' := w * k / nw) in *.
  assert (P : 0 <= p) by (unfold p, Rdiv; apply Rmult_le_pos; [apply Rmult_le_pos; lra|lra]).
  assert (P' : 0 <= p') by (unfold p', Rdiv; apply Rmult_le_pos; [apply Rmult_le_pos; lra|lra]).
  set (u := (fi - a) * (l * k)). set (v := (fj - b) * (w * k)).
  assert (HU : Rabs u <= p / 2).
  { unfold u. rewrite Rabs_mult, (Rabs_pos_eq (l * k)) by (apply Rmult_le_pos; lra). rewrite <- Rabs_Ropp, Ropp_minus_distr.
    unfold p. replace (l * k / nl / 2) with (/ (2 * nl) * (l * k)) by (field; lra).
    apply Rmult_le_compat_r; [apply Rmult_le_pos; lra|exact NI]. }
  assert (HV : Rabs v <= p' / 2).
  { unfold v. rewrite Rabs_mult, (Rabs_pos_eq (w * k)) by (apply Rmult_le_pos; lra). rewrite <- Rabs_Ropp, Ropp_minus_distr.
    unfold p'. replace (w * k / nw / 2) with (/ (2 * nw) * (w * k)) by (field; lra).
    apply Rmult_le_compat_r; [apply Rmult_le_pos; lra|exact NJ]. }
  pose proof (sin2_cos2 yaw) as U. unfold Rsqr in U.
  assert (EX' : IZR (q - sdc_x_in_grid c) = (cos yaw * l * a - sin yaw * w * b + fst center) * k) by (rewrite EX; field; lra).
  assert (EY' : IZR (r - sdc_y_in_grid c) = - ((sin yaw * l * a + cos yaw * w * b + snd center) * k)) by (rewrite EY; field; lra).
  split.
  - assert (S : Rabs (cos yaw * u + (- sin yaw) * v) < 1 / 2) by (apply (across _ _ u v p p'); try assumption; nra).
    assert (E : (cos yaw * l * fi - sin yaw * w * fj + fst center) * k - IZR (q - sdc_x_in_grid c) = cos yaw * u + - sin yaw * v)
      by (rewrite EX'; unfold u, v; ring).
    unfold nearest. rewrite E. split; [lra|intro; lra].
  - assert (S : Rabs ((- sin yaw) * u + (- cos yaw) * v) < 1 / 2) by (apply (across _ _ u v p p'); try assumption; nra).
    assert (E : - ((sin yaw * l * fi + cos yaw * w * fj + snd center) * k) - IZR (r - sdc_y_in_grid c) = - sin yaw * u + - cos yaw * v)
      by (rewrite EY'; unfold u, v; ring).
    unfold nearest. rewrite E. split; [lra|intro; lra].
Qed.

(** The default settings, and a bus of eighteen metres beside nothing else. *)
Definition default_config : render_config :=
  {| task := {| num_past_steps := 10; num_future_steps := 80; num_waypoints := 8; cumulative_waypoints := false |};
     normalize_sdc_yaw := true; grid_height_cells := 256; grid_width_cells := 256; sdc_y_in_grid := 192; sdc_x_in_grid := 128;
     pixels_per_meter := 16 / 5; points_per_side_length := 48; points_per_side_width := 16 |}.
Definition bus : state := {| pos_x := 0; pos_y := 0; bbox_yaw := 0; box_length := 18; box_width := 5 / 2; valid := true |}.
Definition bus_scene : scene :=
  {| sdc_x := 0; sdc_y := 0; sdc_yaw := PI / 2;
     agents := [{| agent_type := 1; past := repeat bus 10; current := [bus]; future := repeat bus 80 |}] |}.
Lemma bus_place a b : seen_from_vehicle default_config bus_scene (box_place bus a b) = (a * 18, b * (5 / 2)).
Proof.
  unfold seen_from_vehicle, box_place, bus, bus_scene. cbn [normalize_sdc_yaw default_config fst snd pos_x pos_y bbox_yaw box_length box_width sdc_x sdc_y sdc_yaw].
  rewrite sin_PI2, cos_PI2, sin_0, cos_0. f_equal; ring.
Qed.
Lemma bus_hole : in_grid default_config 192 101 /\ in_box default_config bus_scene bus 192 101 /\ ~ marks default_config bus_scene bus 192 101.
Proof.
  split; [unfold in_grid; cbn; lia|]. split.
  - exists (- 15 / 32), 0. split; [lra|]. split; [lra|]. rewrite bus_place. cbn [sdc_x_in_grid sdc_y_in_grid pixels_per_meter default_config].
    f_equal; [change (101 - 128)%Z with (-27)%Z|change (192 - 192)%Z with 0%Z]; lra.
  - intros (i & j & I & J & F & _). unfold sample_of in F. rewrite bus_place in F. cbn [fst snd] in F.
    destruct F as (F & _). cbn [sdc_x_in_grid pixels_per_meter default_config points_per_side_length] in F.
    change (101 - 128)%Z with (-27)%Z in F. unfold fraction in F. cbn [Nat.eqb] in F.
    replace (INR (48 - 1)) with 47 in F by (rewrite INR_IZR_INZ; reflexivity).
    apply abs_le in F. destruct (le_lt_dec i 1) as [H|H].
    + apply le_INR in H. change (INR 1) with 1 in H. lra.
    + assert (H2 : INR 2 <= INR i) by (apply le_INR; lia). change (INR 2) with (1 + 1) in H2. lra.
Qed.

(** A car is covered. *)
Definition car : state := {| pos_x := 12; pos_y := 7; bbox_yaw := 1; box_length := 5; box_width := 2; valid := true |}.
Lemma car_case : (box_length car * pixels_per_meter default_config / INR (points_per_side_length default_config - 1)) ^ 2 +
  (box_width car * pixels_per_meter default_config / INR (points_per_side_width default_config - 1)) ^ 2 < 1.
Proof.
  cbn [box_length box_width car pixels_per_meter default_config points_per_side_length points_per_side_width].
  replace (INR (48 - 1)) with 47 by (rewrite INR_IZR_INZ; reflexivity).
  replace (INR (16 - 1)) with 15 by (rewrite INR_IZR_INZ; reflexivity). lra.
Qed.

(** Straight ahead is straight up. *)
Lemma ahead c sc d r q : normalize_sdc_yaw c = true ->
  falls_in c sc (sdc_x sc + d * cos (sdc_yaw sc), sdc_y sc + d * sin (sdc_yaw sc)) r q <->
  q = sdc_x_in_grid c /\ nearest (- (d * pixels_per_meter c)) (r - sdc_y_in_grid c).
Proof.
  intro N. unfold falls_in, seen_from_vehicle. rewrite N. cbn [fst snd].
  replace ((sdc_x sc + d * cos (sdc_yaw sc) - sdc_x sc) * sin (sdc_yaw sc) - (sdc_y sc + d * sin (sdc_yaw sc) - sdc_y sc) * cos (sdc_yaw sc)) with 0 by ring.
  replace ((sdc_x sc + d * cos (sdc_yaw sc) - sdc_x sc) * cos (sdc_yaw sc) + (sdc_y sc + d * sin (sdc_yaw sc) - sdc_y sc) * sin (sdc_yaw sc)) with d.
  - assert (Z : forall z, nearest (0 * pixels_per_meter c) z <-> z = 0%Z).
    { intro z. rewrite Rmult_0_l. assert (N0 : nearest 0 0) by (unfold nearest; rewrite Rminus_0_r, Rabs_R0; split; [lra|intro; lra]).
      split; [intro H; exact (nearest_unique 0 _ _ H N0)|intros ->; exact N0]. }
    rewrite Z. split; intros (A & B); (split; [lia|exact B]).
  - pose proof (sin2_cos2 (sdc_yaw sc)) as U. unfold Rsqr in U.
    transitivity (d * (sin (sdc_yaw sc) * sin (sdc_yaw sc) + cos (sdc_yaw sc) * cos (sdc_yaw sc))); [rewrite U; ring|ring].
Qed.

(** The road graph. *)
Lemma roadgraph c sc points : exists g, render_roadgraph_from_inputs c sc points = Ok g /\
  forall r q, in_grid c r q ->
    (g r q = 1 /\ exists p, In (p, true) points /\ falls_in c sc p r q) \/
    (g r q = 0 /\ forall p, In (p, true) points -> ~ falls_in c sc p r q).
Proof.
  unfold render_roadgraph_from_inputs. cbn zeta.
  set (placed := map (fun p : R * R * bool => _) points).
  assert (PL : placed = map (fun p => (to_image c (seen_from_vehicle c sc (fst p)), snd p)) points).
  { apply map_ext. intros ((x, y), b). cbn [fst snd]. f_equal. f_equal. apply (seen_code c sc x y). }
  set (shown := filter (fun p : pixel * bool => point_is_in_fov c (fst p) && snd p) placed).
  pose proof (scatter_ok (grid_height_cells c) (grid_width_cells c) 1 (fun p : pixel * bool => (snd (fst p), fst (fst p), 0%nat)) (fun _ => 1) shown) as SO.
  match type of SO with ?hyp -> _ = ?rhs => assert (In_bounds : hyp); [|specialize (SO In_bounds);
    match goal with |- context [scatter ?h ?w ?n ?m] => replace (scatter h w n m) with rhs by (symmetry; exact SO) end] end.
 - intros x I. apply filter_In in I. destruct I as (_ & I). apply andb_true_iff in I. destruct I as (F & _). apply fov_bounds in F.
    apply bounds_iff. split; [exact F|lia].
  - cbn [bind]. eexists. split; [reflexivity|]. intros r q G. cbn beta.
    rewrite (scatter_value (fun p : pixel * bool => (snd (fst p), fst (fst p), 0%nat)) (fun _ => 1)), sum_ones.
    destruct (filter (fun x : pixel * bool => same_place (snd (fst x), fst (fst x), 0%nat) (r, q, 0%nat)) shown) as [|y l] eqn:E.
    + right. split; [apply clip_id; cbn; lra|]. intros p I F. apply falls_code in F.
      assert (J : In (q, r, true) (filter (fun x : pixel * bool => same_place (snd (fst x), fst (fst x), 0%nat) (r, q, 0%nat)) shown)).
      { apply filter_In. split; [|now apply same_iff]. apply filter_In. split.
        - rewrite PL. apply in_map_iff. exists (p, true). split; [cbn [fst snd]; now rewrite F|exact I].
        - cbn [fst snd]. rewrite andb_true_r. now apply fov_bounds. }
      rewrite E in J. destruct J.
    + left. split; [apply clip_one; cbn [length]; rewrite S_INR; pose proof (pos_INR (length l)); lra|].
      assert (J : In y (y :: l)) by now left. rewrite <- E in J. apply filter_In in J. destruct J as (J & S). apply same_iff in S.
      apply filter_In in J. destruct J as (J & B). apply andb_true_iff in B. destruct B as (_ & B).
      rewrite PL in J. apply in_map_iff in J. destruct J as ((p, b) & <- & J). cbn [fst snd] in *. subst b.
      exists p. split; [exact J|]. apply falls_code. destruct (to_image c (seen_from_vehicle c sc p)) as [u v]. cbn [fst snd] in S. congruence.
Qed.

(** An agent seen in the past only counts as observed. *)
Definition small_config : render_config :=
  {| task := {| num_past_steps := 1; num_future_steps := 1; num_waypoints := 1; cumulative_waypoints := false |};
     normalize_sdc_yaw := false; grid_height_cells := 4; grid_width_cells := 4; sdc_y_in_grid := 1; sdc_x_in_grid := 1;
     pixels_per_meter := 1; points_per_side_length := 1; points_per_side_width := 1 |}.
Definition dot_state (x : R) (v : bool) : state := {| pos_x := x; pos_y := 0; bbox_yaw := 0; box_length := 1; box_width := 1; valid := v |}.
Definition lost : agent := {| agent_type := 1; past := [dot_state 0 true]; current := [dot_state 0 false]; future := [dot_state 1 true] |}.
Definition lost_scene : scene := {| sdc_x := 0; sdc_y := 0; sdc_yaw := 0; agents := [lost] |}.
Lemma nearest_IZR z : nearest (IZR z) z.
Proof. unfold nearest. replace (IZR z - IZR z) with 0 by ring. rewrite Rabs_R0. split; [lra|intro; lra]. Qed.
Lemma dot_marks x v z : x = IZR z -> marks small_config lost_scene (dot_state x v) 1 (z + 1).
Proof.
  intro E. exists 0%nat, 0%nat. split; [cbn; lia|]. split; [cbn; lia|]. unfold falls_in, sample_of, seen_from_vehicle, box_place, fraction.
  cbn [small_config lost_scene dot_state points_per_side_length points_per_side_width Nat.eqb normalize_sdc_yaw sdc_x sdc_y sdc_x_in_grid sdc_y_in_grid
    pixels_per_meter fst snd pos_x pos_y bbox_yaw box_length box_width].
  split.
  - replace ((x + 0 * 1 * cos 0 - 0 * 1 * sin 0 - 0) * 1) with (IZR z) by (rewrite E; ring). replace (z + 1 - 1)%Z with z by lia. apply nearest_IZR.
  - replace (- ((0 + 0 * 1 * sin 0 + 0 * 1 * cos 0 - 0) * 1)) with (IZR 0) by ring. replace (1 - 1)%Z with 0%Z by lia. apply nearest_IZR.
Qed.
Lemma lost_observed : ~ observed_now lost /\ occupies small_config lost_scene [Future] true false 1 1 2 0 /\
  ~ occupies small_config lost_scene [Future] false true 1 1 2 0.
Proof.
  assert (O : observed lost) by (exists (dot_state 0 true); split; [now left|reflexivity]).
  split; [intros (s & [<-|[]] & V); discriminate|]. split.
  - exists lost, (dot_state 1 true). split; [now left|]. split; [reflexivity|]. split; [intros _; tauto|].
    split; [reflexivity|]. split; [reflexivity|]. exact (dot_marks 1 true 1 eq_refl).
  - intros (a & s & A & _ & W & _). destruct A as [<-|[]]. destruct (W ltac:(now left)) as (W1 & _). specialize (W1 O). discriminate.
Qed.
Lemma small_case : sampled small_config /\ complete small_config [Past; Current; Future] lost_scene /\ complete small_config [Future] lost_scene.
Proof. repeat split; try (cbn; lia); intros a [<-|[]]; reflexivity. Qed.
